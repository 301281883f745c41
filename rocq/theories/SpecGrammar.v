(** Specification of event streams: the productions documented in
    src/event/mod.rs:35-41, with the placement hint every node carries.  Nothing
    here refers to the parser. *)
From Verif Require Export Event.

(** [wf_node k w]: [w] is one node whose placement is [k]. *)
Inductive wf_node : node_kind -> list event_data -> Prop :=
| wf_alias : forall k name, wf_node k [EvAlias name]
| wf_scalar : forall n s, wf_node (n_kind n) [EvScalar n s]
| wf_sequence : forall n body,
    wf_entries body -> wf_node (n_kind n) (EvSequenceStart n :: body ++ [EvSequenceEnd])
| wf_mapping : forall n body,
    wf_pairs body -> wf_node (n_kind n) (EvMappingStart n :: body ++ [EvMappingEnd])
(** [node*], the children of a sequence. *)
with wf_entries : list event_data -> Prop :=
| wf_entries_nil : wf_entries []
| wf_entries_cons : forall x r, wf_node Entry x -> wf_entries r -> wf_entries (x ++ r)
(** [(node node)*], the children of a mapping. *)
with wf_pairs : list event_data -> Prop :=
| wf_pairs_nil : wf_pairs []
| wf_pairs_cons : forall k v r,
    wf_node Key k -> wf_node Value v -> wf_pairs r -> wf_pairs (k ++ v ++ r).

(** [document := DocumentStart node? DocumentEnd]. *)
Inductive wf_document : list event_data -> Prop :=
| wf_document_empty : forall d i j, wf_document [EvDocumentStart d i; EvDocumentEnd j]
| wf_document_node : forall d i j x,
    wf_node Root x -> wf_document (EvDocumentStart d i :: x ++ [EvDocumentEnd j]).

Inductive wf_documents : list event_data -> Prop :=
| wf_documents_nil : wf_documents []
| wf_documents_cons : forall x r, wf_document x -> wf_documents r -> wf_documents (x ++ r).

(** [stream := StreamStart document+ StreamEnd]. *)
Inductive wf_stream : list event_data -> Prop :=
| wf_stream_intro : forall x r,
    wf_document x -> wf_documents r ->
    wf_stream (EvStreamStart :: x ++ r ++ [EvStreamEnd]).

(** The events at the front of a list of results: everything before the first
    result that is not an event. *)
Fixpoint delivered {A} (xs : list (pres (option A))) : list A :=
  match xs with
  | Ok (Some e) :: r => e :: delivered r
  | _ => []
  end.

(** All the events of a list of results, errors skipped: what
    [filter_map(Result::ok)] delivers. *)
Fixpoint all_events {A} (xs : list (pres (option A))) : list A :=
  match xs with
  | [] => []
  | Ok (Some e) :: r => e :: all_events r
  | _ :: r => all_events r
  end.

(** Placement hints, stated without the grammar: a walk over the events that keeps
    the open collections.  [InMap true] expects a key next, [InMap false] a value. *)
Inductive open_collection := InDoc | InSeq | InMap (key : bool).

Definition hint (ctx : list open_collection) : option node_kind :=
  match ctx with
  | InDoc :: _ => Some Root
  | InSeq :: _ => Some Entry
  | InMap true :: _ => Some Key
  | InMap false :: _ => Some Value
  | [] => None
  end.

(** The context once a node has been completed. *)
Definition filled (ctx : list open_collection) : list open_collection :=
  match ctx with
  | InMap b :: r => InMap (negb b) :: r
  | InDoc :: r => r
  | c => c
  end.

Definition kind_eqb (a b : node_kind) : bool :=
  match a, b with
  | Root, Root | Entry, Entry | Key, Key | Value, Value => true
  | _, _ => false
  end.
Definition hinted (ctx : list open_collection) (n : node) : bool :=
  match hint ctx with Some k => kind_eqb k (n_kind n) | None => false end.

Fixpoint placed (ctx : list open_collection) (w : list event_data) : bool :=
  match w with
  | [] => true
  | EvDocumentStart _ _ :: r => placed [InDoc] r
  | EvDocumentEnd _ :: r => placed [] r
  | EvAlias _ :: r => match hint ctx with Some _ => placed (filled ctx) r | None => false end
  | EvScalar n _ :: r => hinted ctx n && placed (filled ctx) r
  | EvSequenceStart n :: r => hinted ctx n && placed (InSeq :: filled ctx) r
  | EvMappingStart n :: r => hinted ctx n && placed (InMap true :: filled ctx) r
  | EvSequenceEnd :: r =>
      match ctx with InSeq :: c => placed c r | _ => false end
  | EvMappingEnd :: r =>
      match ctx with InMap true :: c => placed c r | _ => false end
  | _ :: r => placed ctx r
  end.

(** The tag an event carries. *)
Definition event_tag (d : event_data) : option (cow * cow) :=
  match d with
  | EvScalar n _ | EvMappingStart n | EvSequenceStart n => n_tag n
  | _ => None
  end.

(** The directives in force after the events [w]: those of the last document start,
    [d] if there was none. *)
Definition active (d : directives) (w : list event_data) : directives :=
  fold_left (fun d e => match e with EvDocumentStart d' _ => d' | _ => d end) w d.
