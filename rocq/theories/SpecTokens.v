(** Specification of what an event stream means in terms of the tokens it is made
    from: a translation grammar.  Every relation reads tokens from the front of a
    list, produces the events of what it read, and leaves the remaining tokens.
    Nothing here refers to the parser: there is no state machine and no stack. *)
From Verif Require Export Event.

(** One token of look-ahead. *)
Definition ahead (ts : list maybe_token) : option marker :=
  option_map maybe_marker (hd_error ts).
Definition ahead_in (ts : list maybe_token) (ms : list marker) : Prop :=
  exists m, ahead ts = Some m /\ In m ms.
(** There is a next token and it is none of [ms]. *)
Definition ahead_not (ts : list maybe_token) (ms : list marker) : Prop :=
  exists m, ahead ts = Some m /\ ~ In m ms.

(** [anchor? tag?] in either order. *)
Inductive t_props : list maybe_token -> option cow -> option (cow * cow) ->
                    list maybe_token -> Prop :=
| tp_none ts : ahead_not ts [MAnchor; MTag] -> t_props ts None None ts
| tp_anchor a ts : ahead_not ts [MTag] -> t_props (Tok (TAnchor a) :: ts) (Some a) None ts
| tp_tag h s ts : ahead_not ts [MAnchor] -> t_props (Tok (TTag h s) :: ts) None (Some (h, s)) ts
| tp_anchor_tag a h s ts :
    t_props (Tok (TAnchor a) :: Tok (TTag h s) :: ts) (Some a) (Some (h, s)) ts
| tp_tag_anchor a h s ts :
    t_props (Tok (TTag h s) :: Tok (TAnchor a) :: ts) (Some a) (Some (h, s)) ts.

(** The tag [!]: no resolution. *)
Definition non_specific (h s : cow) : Prop := cow_str h = bytes "!" /\ cow_str s = [].

(** The tag delivered for a written one: the non-specific tag disappears on scalars,
    every other tag must have a handle in [known] and is unchanged. *)
Inductive t_tag (known : str -> Prop) (scalar : bool) :
  option (cow * cow) -> option (cow * cow) -> Prop :=
| tt_none : t_tag known scalar None None
| tt_dropped h s : scalar = true -> non_specific h s -> t_tag known scalar (Some (h, s)) None
| tt_kept h s : ~ (scalar = true /\ non_specific h s) -> known (cow_str h) ->
    t_tag known scalar (Some (h, s)) (Some (h, s)).

(** The tokens that start the content of a node. *)
Definition starters (block : bool) : list marker :=
  [MFlowSequenceStart; MFlowMappingStart; MScalar]
  ++ (if block then [MBlockSequenceStart; MBlockMappingStart] else []).

(** An absent node: an empty plain scalar without properties. *)
Definition absent (k : node_kind) : event_data :=
  EvScalar (mkNode None None k) empty_scalar_like.

Section Nodes.
  Variable known : str -> Prop.

  Inductive t_node : bool -> node_kind -> list maybe_token -> list event_data ->
                     list maybe_token -> Prop :=
  | tn_alias b k n ts : t_node b k (Tok (TAlias n) :: ts) [EvAlias n] ts
  | tn_scalar b k ts a g g' t st rest :
      t_props ts a g (Tok (TScalar t st) :: rest) -> t_tag known true g g' ->
      t_node b k ts [EvScalar (mkNode a g' k) (Eager t st)] rest
  | tn_lazy b k ts a g g' d rest :
      t_props ts a g (Lazy d :: rest) -> t_tag known true g g' ->
      t_node b k ts [EvScalar (mkNode a g' k) (LazyS d)] rest
  (* properties without content *)
  | tn_empty b k ts a g g' rest :
      t_props ts a g rest -> a <> None \/ g <> None -> ahead_not rest (starters b) ->
      t_tag known true g g' ->
      t_node b k ts [EvScalar (mkNode a g' k) empty_scalar_like] rest
  | tn_flow_sequence b k ts a g g' ts1 evs rest :
      t_props ts a g (Tok TFlowSequenceStart :: ts1) -> t_tag known false g g' ->
      t_flow_entries true ts1 evs rest ->
      t_node b k ts (EvSequenceStart (mkNode a g' k) :: evs) rest
  | tn_flow_mapping b k ts a g g' ts1 evs rest :
      t_props ts a g (Tok TFlowMappingStart :: ts1) -> t_tag known false g g' ->
      t_flow_pairs true ts1 evs rest ->
      t_node b k ts (EvMappingStart (mkNode a g' k) :: evs) rest
  | tn_block_sequence k ts a g g' ts1 evs rest :
      t_props ts a g (Tok TBlockSequenceStart :: ts1) -> t_tag known false g g' ->
      t_block_entries ts1 evs rest ->
      t_node true k ts (EvSequenceStart (mkNode a g' k) :: evs) rest
  | tn_block_mapping k ts a g g' ts1 evs rest :
      t_props ts a g (Tok TBlockMappingStart :: ts1) -> t_tag known false g g' ->
      t_block_pairs ts1 evs rest ->
      t_node true k ts (EvMappingStart (mkNode a g' k) :: evs) rest
  (** A node, or an absent one if a token of [stop] follows. *)
  with t_slot : list marker -> bool -> node_kind -> list maybe_token ->
                list event_data -> list maybe_token -> Prop :=
  | ts_absent stop b k ts : ahead_in ts stop -> t_slot stop b k ts [absent k] ts
  | ts_node stop b k ts evs rest :
      ahead_not ts stop -> t_node b k ts evs rest -> t_slot stop b k ts evs rest
  (** [: node?], or nothing at all. *)
  with t_value : list marker -> bool -> list maybe_token -> list event_data ->
                 list maybe_token -> Prop :=
  | tv_value stop b ts evs rest :
      t_slot stop b Value ts evs rest -> t_value stop b (Tok TValue :: ts) evs rest
  | tv_absent stop b ts : ahead_not ts [MValue] -> t_value stop b ts [absent Value] ts
  (** [(- node?)* BlockEnd] *)
  with t_block_entries : list maybe_token -> list event_data -> list maybe_token -> Prop :=
  | tbe_end ts : t_block_entries (Tok TBlockEnd :: ts) [EvSequenceEnd] ts
  | tbe_entry ts e ts1 evs rest :
      t_slot [MBlockEntry; MBlockEnd] true Entry ts e ts1 -> t_block_entries ts1 evs rest ->
      t_block_entries (Tok TBlockEntry :: ts) (e ++ evs) rest
  (** [(? node? (: node?)?)* BlockEnd] *)
  with t_block_pairs : list maybe_token -> list event_data -> list maybe_token -> Prop :=
  | tbp_end ts : t_block_pairs (Tok TBlockEnd :: ts) [EvMappingEnd] ts
  | tbp_pair ts k ts1 v ts2 evs rest :
      t_slot [MKey; MValue; MBlockEnd] true Key ts k ts1 ->
      t_value [MKey; MValue; MBlockEnd] true ts1 v ts2 ->
      t_block_pairs ts2 evs rest ->
      t_block_pairs (Tok TKey :: ts) (k ++ v ++ evs) rest
  (** [entry? (, entry)* ,? FlowSequenceEnd]; the flag says whether this is the front. *)
  with t_flow_entries : bool -> list maybe_token -> list event_data ->
                        list maybe_token -> Prop :=
  | tfe_end f ts : t_flow_entries f (Tok TFlowSequenceEnd :: ts) [EvSequenceEnd] ts
  | tfe_trailing ts :
      t_flow_entries false (Tok TFlowEntry :: Tok TFlowSequenceEnd :: ts) [EvSequenceEnd] ts
  | tfe_first ts e ts1 evs rest :
      t_flow_entry ts e ts1 -> t_flow_entries false ts1 evs rest ->
      t_flow_entries true ts (e ++ evs) rest
  | tfe_next ts e ts1 evs rest :
      t_flow_entry ts e ts1 -> t_flow_entries false ts1 evs rest ->
      t_flow_entries false (Tok TFlowEntry :: ts) (e ++ evs) rest
  (** A node, or a single pair, which is a mapping of its own. *)
  with t_flow_entry : list maybe_token -> list event_data -> list maybe_token -> Prop :=
  | tfi_node ts evs rest :
      ahead_not ts [MKey; MFlowSequenceEnd] -> t_node false Entry ts evs rest ->
      t_flow_entry ts evs rest
  | tfi_pair ts k ts1 v rest :
      t_slot [MValue; MFlowEntry; MFlowSequenceEnd] false Key ts k ts1 ->
      t_value [MFlowEntry; MFlowSequenceEnd] false ts1 v rest ->
      t_flow_entry (Tok TKey :: ts)
        (EvMappingStart (mkNode None None Entry) :: k ++ v ++ [EvMappingEnd]) rest
  (** [pair? (, pair)* ,? FlowMappingEnd] *)
  with t_flow_pairs : bool -> list maybe_token -> list event_data ->
                      list maybe_token -> Prop :=
  | tfp_end f ts : t_flow_pairs f (Tok TFlowMappingEnd :: ts) [EvMappingEnd] ts
  | tfp_trailing ts :
      t_flow_pairs false (Tok TFlowEntry :: Tok TFlowMappingEnd :: ts) [EvMappingEnd] ts
  | tfp_first ts e ts1 evs rest :
      t_flow_pair ts e ts1 -> t_flow_pairs false ts1 evs rest ->
      t_flow_pairs true ts (e ++ evs) rest
  | tfp_next ts e ts1 evs rest :
      t_flow_pair ts e ts1 -> t_flow_pairs false ts1 evs rest ->
      t_flow_pairs false (Tok TFlowEntry :: ts) (e ++ evs) rest
  (** [? node? (: node?)?], or a key alone. *)
  with t_flow_pair : list maybe_token -> list event_data -> list maybe_token -> Prop :=
  | tfq_pair ts k ts1 v rest :
      t_slot [MValue; MFlowEntry; MFlowMappingEnd] false Key ts k ts1 ->
      t_value [MFlowEntry; MFlowMappingEnd] false ts1 v rest ->
      t_flow_pair (Tok TKey :: ts) (k ++ v) rest
  | tfq_key ts k rest :
      ahead_not ts [MKey; MFlowMappingEnd] -> t_node false Key ts k rest -> rest <> [] ->
      t_flow_pair ts (k ++ [absent Value]) rest.
End Nodes.

(** ** Directives *)
Inductive directive := DVersion (major minor : N) | DTag (handle prefix : cow).
Definition directive_token (d : directive) : maybe_token :=
  Tok match d with
      | DVersion a b => TVersionDirective a b
      | DTag h p => TTagDirective h p
      end.

(** The versions and the tag declarations of a list of directives. *)
Definition versions (ds : list directive) : list (N * N) :=
  flat_map (fun d => match d with DVersion a b => [(a, b)] | _ => [] end) ds.
Definition declared (ds : list directive) : tag_map :=
  flat_map (fun d => match d with DTag h p => [(h, p)] | _ => [] end) ds.

(** At most one version, no handle twice; the default handles count as declared. *)
Definition distinct (ds : list directive) : Prop :=
  List.length (versions ds) <= 1 /\
  NoDup (map (fun hp => cow_str (fst hp)) (default_tags ++ declared ds)).

(** The directives of a document start. *)
Definition directives_of (ds : list directive) : directives :=
  mkDirs (hd default_version (versions ds)) (default_tags ++ declared ds).

Definition known_in (d : directives) (h : str) : Prop := tag_get (d_tags d) h <> None.

(** ** Documents *)
Definition directive_markers : list marker := [MVersionDirective; MTagDirective].
Definition document_markers : list marker :=
  [MVersionDirective; MTagDirective; MDocumentStart; MDocumentEnd; MStreamEnd].

Inductive t_content (d : directives) :
  list maybe_token -> list event_data -> list maybe_token -> Prop :=
| tc_absent ts : ahead_in ts document_markers -> t_content d ts [] ts
| tc_node ts evs rest :
    ahead_not ts document_markers -> t_node (known_in d) true Root ts evs rest ->
    t_content d ts evs rest.

(** [t_documents bare first]: the rest of a stream.  [bare]: a document may start
    without [---], which is so at the beginning and after [...]; [first]: no document
    was read yet. *)
Inductive t_documents : bool -> bool -> list maybe_token -> list event_data ->
                        list maybe_token -> Prop :=
| td_stream_end bare ts :
    t_documents bare false (Tok TStreamEnd :: ts) [EvStreamEnd] ts
| td_empty bare ts evs rest :
    t_documents false false (Tok TStreamEnd :: ts) evs rest ->
    t_documents bare true (Tok TStreamEnd :: ts)
      (EvDocumentStart default_directives true :: EvDocumentEnd true :: evs) rest
| td_bare first ts n ts1 evs rest :
    ahead_not ts [MVersionDirective; MTagDirective; MDocumentStart; MStreamEnd] ->
    t_node (known_in default_directives) true Root ts n ts1 ->
    t_document_end ts1 evs rest ->
    t_documents true first ts
      (EvDocumentStart default_directives true :: n ++ evs) rest
| td_explicit bare first ds ts n ts1 evs rest :
    distinct ds ->
    t_content (directives_of ds) ts n ts1 ->
    t_document_end ts1 evs rest ->
    t_documents bare first (map directive_token ds ++ Tok TDocumentStart :: ts)
      (EvDocumentStart (directives_of ds) false :: n ++ evs) rest
(** The end of a document and what follows it. *)
with t_document_end : list maybe_token -> list event_data -> list maybe_token -> Prop :=
| te_explicit ts evs rest :
    t_documents true false ts evs rest ->
    t_document_end (Tok TDocumentEnd :: ts) (EvDocumentEnd false :: evs) rest
| te_implicit ts evs rest :
    ahead_not ts [MDocumentEnd] ->
    t_documents false false ts evs rest ->
    t_document_end ts (EvDocumentEnd true :: evs) rest.

Inductive t_stream : list maybe_token -> list event_data -> list maybe_token -> Prop :=
| tst_intro ts evs rest :
    t_documents true true ts evs rest ->
    t_stream (Tok TStreamStart :: ts) (EvStreamStart :: evs) rest.
