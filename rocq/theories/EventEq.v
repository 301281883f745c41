(** Equality of events: [PartialEq] of the types in src/event/types.rs. *)
From Verif Require Export Event.
Open Scope nat_scope.

(** [Cow<str>]: the texts are compared, not whether they are borrowed (types.rs:25). *)
Definition cow_eqb (a b : cow) : bool := str_eqb (cow_str a) (cow_str b).

(** src/event/types.rs:579-592, derived for [ScalarStyle]. *)
Definition style_eqb (a b : scalar_style) : bool :=
  match a, b with
  | Plain, Plain | SingleQuote, SingleQuote | DoubleQuote, DoubleQuote | Literal, Literal | Folded, Folded => true
  | _, _ => false
  end.

(** src/event/types.rs:439, derived for [NodeKind]. *)
Definition node_kind_eqb (a b : node_kind) : bool :=
  match a, b with
  | Root, Root | Entry, Entry | Key, Key | Value, Value => true
  | _, _ => false
  end.

(** src/event/types.rs:321-333, [ScalarLike::eq], with 339 for [Scalar]. *)
Definition scalar_eqb (a b : scalar_like) : bool :=
  match a, b with
  | Eager s j, Eager t k => cow_eqb s t && style_eqb j k
  | _, _ => false
  end.

(** Derived for [Option]. *)
Definition option_eqb {A} (eqb : A -> A -> bool) (a b : option A) : bool :=
  match a, b with
  | Some x, Some y => eqb x y
  | None, None => true
  | _, _ => false
  end.

(** src/event/types.rs:173-185, derived for [Node], but for the content. *)
Definition node_eqb (a b : node) : bool :=
  option_eqb cow_eqb (n_anchor a) (n_anchor b) &&
  option_eqb (fun x y => cow_eqb (fst x) (fst y) && cow_eqb (snd x) (snd y)) (n_tag a) (n_tag b) &&
  node_kind_eqb (n_kind a) (n_kind b).

(** [PartialEq] of the standard library for [HashMap]: as many bindings, and each binding
    of the one is a binding of the other. *)
Definition tags_eqb (a b : tag_map) : bool :=
  Nat.eqb (List.length a) (List.length b) &&
  forallb (fun hp => match tag_get b (cow_str (fst hp)) with Some p => cow_eqb (snd hp) p | None => false end) a.

(** src/event/types.rs:518-526 and 554-561, derived for [Directives]. *)
Definition directives_eqb (a b : directives) : bool :=
  N.eqb (fst (d_version a)) (fst (d_version b)) && N.eqb (snd (d_version a)) (snd (d_version b)) &&
  tags_eqb (d_tags a) (d_tags b).

(** src/event/types.rs:115-164 and 477-515, derived for [EventData] and its parts. *)
Definition data_eqb (a b : event_data) : bool :=
  match a, b with
  | EvStreamStart, EvStreamStart | EvStreamEnd, EvStreamEnd | EvMappingEnd, EvMappingEnd | EvSequenceEnd, EvSequenceEnd => true
  | EvDocumentStart d i, EvDocumentStart e j => directives_eqb d e && Bool.eqb i j
  | EvDocumentEnd i, EvDocumentEnd j => Bool.eqb i j
  | EvAlias n, EvAlias m => cow_eqb n m
  | EvScalar n s, EvScalar m t => node_eqb n m && scalar_eqb s t
  | EvMappingStart n, EvMappingStart m => node_eqb n m
  | EvSequenceStart n, EvSequenceStart m => node_eqb n m
  | _, _ => false
  end.

(** src/event/types.rs:65-71, derived for [Event]. *)
Definition event_eqb (a b : event) : bool :=
  Nat.eqb (ev_start a) (ev_start b) && Nat.eqb (ev_end a) (ev_end b) && data_eqb (ev_data a) (ev_data b).
