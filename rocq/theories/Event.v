(** Events delivered by the parser (src/event/types.rs, src/event/error.rs). *)
From Verif Require Export Reader.

(** src/event/types.rs:440-474, [NodeKind]. *)
Inductive node_kind := Root | Entry | Key | Value.

(** src/event/types.rs:192-201 and 340-344 and 400-403, [ScalarLike]. *)
Inductive scalar_like := Eager (text : cow) (style : scalar_style) | LazyS (d : deferred).

(** src/event/types.rs:59-63 and 304-310, [EMPTY_SCALAR]. *)
Definition empty_scalar_like : scalar_like := Eager (Borrowed []) Plain.

(** src/event/types.rs:565, [TagDirectives]: a [HashMap] from handle to prefix,
    represented by the list of its bindings.  Keys are compared by content, as
    [Cow<str>] does. *)
Definition tag_map := list (cow * cow).

(** [HashMap::get]. *)
Fixpoint tag_get (m : tag_map) (h : str) : option cow :=
  match m with
  | [] => None
  | (k, v) :: r => if str_eqb (cow_str k) h then Some v else tag_get r h
  end.

(** [HashMap::insert] of a key that is not present (the only use,
    parser/mod.rs:1150-1156), and [entry(h).or_insert(p)] (1166). *)
Definition tag_insert (m : tag_map) (h p : cow) : tag_map := m ++ [(h, p)].
Definition tag_or_insert (m : tag_map) (h p : cow) : tag_map :=
  match tag_get m (cow_str h) with Some _ => m | None => tag_insert m h p end.

(** src/event/types.rs:519-526, [Directives]; the version is (major, minor). *)
Record directives := mkDirs { d_version : N * N; d_tags : tag_map }.

(** src/event/types.rs:38-57, [DEFAULT_TAGS] and [DEFAULT_VERSION]. *)
Definition default_tags : tag_map :=
  [(Borrowed (bytes "!"), Borrowed (bytes "!"));
   (Borrowed (bytes "!!"), Borrowed (bytes "tag:yaml.org,2002:"))].
Definition default_version : N * N := (1%N, 2%N).

(** src/event/types.rs:540-549, [Directives::default]. *)
Definition default_directives : directives := mkDirs default_version default_tags.

(** src/event/types.rs:174-185, the common fields of [Node]. *)
Record node := mkNode {
  n_anchor : option cow; n_tag : option (cow * cow); n_kind : node_kind
}.

(** src/event/types.rs:116-164, [EventData].  The encoding of [StreamStart] is
    always UTF8 and dropped. *)
Inductive event_data :=
| EvStreamStart
| EvStreamEnd
| EvDocumentStart (d : directives) (implicit : bool)
| EvDocumentEnd (implicit : bool)
| EvAlias (name : cow)
| EvScalar (n : node) (content : scalar_like)
| EvMappingStart (n : node)
| EvMappingEnd
| EvSequenceStart (n : node)
| EvSequenceEnd.

(** src/event/types.rs:66-71, [Event]. *)
Record event := mkEvent { ev_start : nat; ev_end : nat; ev_data : event_data }.

(** src/event/error.rs:28-193, [ParseError]. *)
Inductive parse_error :=
| CorruptStream | DuplicateVersion | DuplicateTagDirective | UndefinedTag
| MissingDocumentStart | MissingBlockEntry | MissingNode | MissingKey
| MissingFlowSequenceEntryOrEnd | MissingFlowMappingEntryOrEnd
| ParserEOF
| ParserScan (e : scan_error)
| ParserUtf8
| ParserIo.
Definition pres := res parse_error.

(** src/event/error.rs:203-214, [From<ReaderError>]. *)
Definition parse_error_of_reader (e : reader_error) : parse_error :=
  match e with
  | RUtf8 => ParserUtf8
  | RIo => ParserIo
  | RScan e => ParserScan e
  end.

(** src/event/types.rs:274-281 and 426-434, [ScalarLike::evaluate_scalar]: text and
    style.  Only scalars can be deferred; anything else is [unreachable!]. *)
Definition evaluate_scalar (s : scalar_like) : sres (cow * scalar_style) :=
  match s with
  | Eager t k => Ok (t, k)
  | LazyS d =>
      let* t := eval_deferred d in
      match t with
      | TScalar t k => Ok (t, k)
      | _ => Panic
      end
  end.

(** src/event/types.rs:256-267, [evaluate_scalar_by_ref]: the new contents of the
    reference and the result. *)
Definition evaluate_scalar_by_ref (s : scalar_like)
  : scalar_like * sres (cow * scalar_style) :=
  match evaluate_scalar s with
  | Ok (t, k) => (Eager t k, Ok (t, k))
  | r => (empty_scalar_like, r)
  end.
