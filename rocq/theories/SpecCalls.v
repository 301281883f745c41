(** Specification of what each event stands for: the tokens one call of the iterator
    turns into one event.  Nothing here refers to the parser. *)
From Verif Require Export SpecTokens.

(** Tokens that only give structure. *)
Definition structural (t : maybe_token) : bool :=
  match t with
  | Tok (TBlockSequenceStart | TBlockMappingStart | TBlockEnd | TFlowSequenceStart
        | TFlowSequenceEnd | TFlowMappingStart | TFlowMappingEnd | TBlockEntry | TFlowEntry
        | TKey | TValue) => true
  | _ => false
  end.

(** The properties of a node: an anchor and a tag, at most one each, in any order. *)
Inductive written : list maybe_token -> option cow -> option (cow * cow) -> Prop :=
| wr_none : written [] None None
| wr_anchor a : written [Tok (TAnchor a)] (Some a) None
| wr_tag h s : written [Tok (TTag h s)] None (Some (h, s))
| wr_anchor_tag a h s : written [Tok (TAnchor a); Tok (TTag h s)] (Some a) (Some (h, s))
| wr_tag_anchor a h s : written [Tok (TTag h s); Tok (TAnchor a)] (Some a) (Some (h, s)).

(** The tag a node is delivered with: as written, except that [!] is dropped from
    scalars. *)
Definition delivered_tag (scalar : bool) (g : option (cow * cow)) : option (cow * cow) :=
  match g with
  | Some (h, s) =>
      if scalar && (str_eqb (cow_str h) (bytes "!") && str_eqb (cow_str s) []) then None else g
  | None => None
  end.

Inductive node_tokens : list maybe_token -> event_data -> Prop :=
| nt_alias n : node_tokens [Tok (TAlias n)] (EvAlias n)
| nt_scalar ps a g k t st : written ps a g ->
    node_tokens (ps ++ [Tok (TScalar t st)])
      (EvScalar (mkNode a (delivered_tag true g) k) (Eager t st))
| nt_lazy ps a g k d : written ps a g ->
    node_tokens (ps ++ [Lazy d]) (EvScalar (mkNode a (delivered_tag true g) k) (LazyS d))
| nt_empty ps a g k : written ps a g ->
    node_tokens ps (EvScalar (mkNode a (delivered_tag true g) k) empty_scalar_like)
| nt_sequence ps a g k : written ps a g ->
    node_tokens ps (EvSequenceStart (mkNode a (delivered_tag false g) k))
| nt_mapping ps a g k : written ps a g ->
    node_tokens ps (EvMappingStart (mkNode a (delivered_tag false g) k)).

Inductive stands_for : list maybe_token -> event_data -> Prop :=
| sf_stream_start : stands_for [Tok TStreamStart] EvStreamStart
| sf_stream_end : stands_for [Tok TStreamEnd] EvStreamEnd
| sf_document_start ds : distinct ds ->
    stands_for (map directive_token ds ++ [Tok TDocumentStart])
      (EvDocumentStart (directives_of ds) false)
| sf_bare_document : stands_for [] (EvDocumentStart default_directives true)
| sf_document_end : stands_for [Tok TDocumentEnd] (EvDocumentEnd false)
| sf_open_end : stands_for [] (EvDocumentEnd true)
| sf_node s c d : forallb structural s = true -> node_tokens c d -> stands_for (s ++ c) d
| sf_sequence_end s : forallb structural s = true -> stands_for s EvSequenceEnd
| sf_mapping_end s : forallb structural s = true -> stands_for s EvMappingEnd.

(** The first directive that repeats an earlier one, as the error it is reported
    with: [seen] tells whether a version was given, [handles] are taken. *)
Fixpoint first_conflict (seen : bool) (handles : list str) (ds : list directive)
  : option parse_error :=
  match ds with
  | [] => None
  | DVersion _ _ :: r => if seen then Some DuplicateVersion else first_conflict true handles r
  | DTag h _ :: r =>
      if existsb (str_eqb (cow_str h)) handles then Some DuplicateTagDirective
      else first_conflict seen (cow_str h :: handles) r
  end.
Definition default_handles : list str := [bytes "!"; bytes "!!"].
Definition is_directive (t : maybe_token) : bool :=
  match t with Tok (TVersionDirective _ _ | TTagDirective _ _) => true | _ => false end.

(** The document marks of a token list and of an event list: [true] for the start of
    a document, [false] for its end; events without a mark in the text do not count. *)
Definition token_marks (ts : list maybe_token) : list bool :=
  flat_map (fun t => match t with
                     | Tok TDocumentStart => [true]
                     | Tok TDocumentEnd => [false]
                     | _ => []
                     end) ts.
Definition explicit_marks (evs : list event_data) : list bool :=
  flat_map (fun e => match e with
                     | EvDocumentStart _ false => [true]
                     | EvDocumentEnd false => [false]
                     | _ => []
                     end) evs.
