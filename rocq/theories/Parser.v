(** The event parser (src/event/parser/mod.rs, src/event/parser/macros.rs,
    src/event/state.rs).

    The parser is generic in its token source: a state [R] with the two
    operations the code uses ([PeekReader::peek] and [PeekReader::pop]).  [budget]
    is model only: fuel for the two loops that consume tokens until a token of
    another kind appears.  [debug] tells whether [debug_assert!] is compiled in. *)
From Verif Require Export Event.

(** src/event/state.rs:91-139, [State]; the flags of each state are booleans. *)
Inductive state :=
| StStreamStart
| StStreamEnd
| StDocumentStart (implicit first : bool)
| StDocumentContent
| StDocumentEnd
| StBlockNode
| StFlowNode
| StBlockSequenceEntry (first : bool)
| StBlockMappingKey (first : bool)
| StBlockMappingValue
| StFlowSequenceEntry (first : bool)
| StFlowSequenceMappingKey
| StFlowSequenceMappingValue
| StFlowSequenceMappingEnd
| StFlowMappingKey (first : bool)
| StFlowMappingValue (empty : bool).

(** src/event/parser/mod.rs:78-84, [Parser], with [StateMachine]
    (state.rs:15-19) flattened.  The head of [ps_stack] is the last element of
    the vector. *)
Record parser := mkParser {
  ps_top : state; ps_stack : list state; ps_dirs : directives; ps_done : bool
}.

(** src/event/parser/mod.rs:90-97, [Parser::new]. *)
Definition parser0 : parser := mkParser StStreamStart [] default_directives false.

(** src/event/parser/macros.rs:70-87: [->], [>>] and [<<]. *)
Definition st_top (s : state) (p : parser) : parser :=
  mkParser s (ps_stack p) (ps_dirs p) (ps_done p).
Definition st_push (s : state) (p : parser) : parser :=
  mkParser (ps_top p) (s :: ps_stack p) (ps_dirs p) (ps_done p).
Definition st_pop (p : parser) : parser :=
  match ps_stack p with
  | [] => p
  | s :: r => mkParser s r (ps_dirs p) (ps_done p)
  end.
Definition set_dirs (d : directives) (p : parser) : parser :=
  mkParser (ps_top p) (ps_stack p) d (ps_done p).
Definition set_done (p : parser) : parser :=
  mkParser (ps_top p) (ps_stack p) (ps_dirs p) true.

(** A token source. *)
Record token_source (R : Type) := mkSource {
  ts_look : R -> R * rres (option entry);
  ts_pop : R -> R * rres (option entry);
  ts_budget : R -> nat
}.
Arguments ts_look {R}.
Arguments ts_pop {R}.
Arguments ts_budget {R}.

Section Parser.
  Variable R : Type.
  Variable T : token_source R.
  Variable debug : bool.

  (** A method of the parser, with both mutable arguments threaded through. *)
  Definition P (A : Type) := parser -> R -> parser * R * pres A.
  Definition pret {A} (a : A) : P A := fun p r => (p, r, Ok a).
  Definition pfail {A} (x : pres A) : P A := fun p r => (p, r, x).
  Definition pbind {A B} (m : P A) (k : A -> P B) : P B :=
    fun p r => match m p r with
               | (p', r', Ok a) => k a p' r'
               | (p', r', Err e) => (p', r', Err e)
               | (p', r', Panic) => (p', r', Panic)
               | (p', r', Fuel) => (p', r', Fuel)
               end.
  Definition pupd (f : parser -> parser) : P unit := fun p r => (f p, r, Ok tt).
  Notation "'do' x '<-' m ';' k" := (pbind m (fun x => k))
    (at level 200, x name, m at level 99, k at level 200, right associativity).
  Notation "'do' ' p '<-' m ';' k" := (pbind m (fun x => let 'p := x in k))
    (at level 200, p strict pattern, m at level 99, k at level 200, right associativity).
  Notation "m ';;' k" := (pbind m (fun _ => k))
    (at level 100, k at level 200, right associativity).

  (** src/event/parser/macros.rs:32-37, [peek!(@ ~ queue)]: no error at the end. *)
  Definition peek_opt : P (option entry) :=
    fun p r => let (r', x) := ts_look T r in (p, r', map_err parse_error_of_reader x).

  (** src/event/parser/macros.rs:17-31, [peek!]: the start mark (equal to the end
      mark) and the marker. *)
  Definition peek : P (nat * marker) :=
    do e <- peek_opt;
    match e with
    | Some e => pret (e_read e, e_marker e)
    | None => pfail (Err ParserEOF)
    end.

  (** src/event/parser/macros.rs:46-53, [pop!]. *)
  Definition pop : P entry :=
    do e <- (fun p r => let (r', x) := ts_pop T r in (p, r', map_err parse_error_of_reader x));
    match e with
    | Some e => pret e
    | None => pfail (Err ParserEOF)
    end.

  (** src/event/parser/macros.rs:111-206, [consume!]: the mark and the token, for the
      kinds that cannot be deferred; a deferred token is [unreachable!]. *)
  Definition consume : P (nat * token) :=
    do e <- pop;
    match e_wrap e with
    | Tok t => pret (e_read e, t)
    | Lazy _ => pfail Panic
    end.

  (** src/event/parser/macros.rs:120-130, [consume!(queue, Scalar)]. *)
  Definition consume_scalar : P (nat * scalar_like) :=
    do e <- pop;
    match e_wrap e with
    | Tok (TScalar t k) => pret (e_read e, Eager t k)
    | Tok _ => pfail Panic
    | Lazy d => pret (e_read e, LazyS d)
    end.

  (** [debug_assert!]. *)
  Definition debug_assert (b : bool) : P unit :=
    if debug && negb b then pfail Panic else pret tt.

  (** An event is delivered. *)
  Definition deliver (s e : nat) (d : event_data) : P (option event) :=
    pret (Some (mkEvent s e d)).

  (** src/event/parser/mod.rs:180-195, [stream_start]. *)
  Definition stream_start : P (option event) :=
    do '(_, t) <- peek;
    do ev <- match t with
             | MStreamStart =>
                 do '(m, t) <- consume;
                 match t with
                 | TStreamStart => deliver m m EvStreamStart
                 | _ => pfail Panic
                 end
             | _ => pfail (Err CorruptStream)
             end;
    pupd (st_top (StDocumentStart true true)) ;;
    pret ev.

  (** src/event/parser/mod.rs:199-212, [stream_end]. *)
  Definition stream_end : P (option event) :=
    do d <- (fun p r => (p, r, Ok (ps_done p)));
    if d : bool then pret None
    else
      do '(m, t) <- consume;
      match t with
      | TStreamEnd => pupd set_done ;; deliver m m EvStreamEnd
      | _ => pfail Panic
      end.

  (** src/event/parser/mod.rs:1121-1161, the loop of [scan_document_directives].
      State: end mark, seen_version, directives. *)
  Fixpoint scan_directives (fuel : nat) (end_ : nat) (seen : bool) (d : directives)
    : P (nat * directives) :=
    match fuel with
    | O => pfail Fuel
    | S fuel' =>
        do '(_, t) <- peek;
        match t with
        | MVersionDirective =>
            if seen then pfail (Err DuplicateVersion)
            else
              do '(m, t) <- consume;
              match t with
              | TVersionDirective a b =>
                  scan_directives fuel' m true (mkDirs (a, b) (d_tags d))
              | _ => pfail Panic
              end
        | MTagDirective =>
            do '(m, t) <- consume;
            match t with
            | TTagDirective h p =>
                match tag_get (d_tags d) (cow_str h) with
                | Some _ => pfail (Err DuplicateTagDirective)
                | None =>
                    scan_directives fuel' m seen
                      (mkDirs (d_version d) (tag_insert (d_tags d) h p))
                end
            | _ => pfail Panic
            end
        | _ => pret (end_, d)
        end
    end.

  (** Fuel of the token consuming loops. *)
  Definition budget : P nat := fun p r => (p, r, Ok (S (ts_budget T r))).

  (** src/event/parser/mod.rs:1104-1170, [scan_document_directives] with
      [DEFAULT_TAGS]: start mark, end mark, directives. *)
  Definition scan_document_directives : P (nat * nat * directives) :=
    do '(start, _) <- peek;
    do n <- budget;
    do '(end_, d) <- scan_directives n start false default_directives;
    let tags := fold_left (fun m hp => tag_or_insert m (fst hp) (snd hp))
                  default_tags (d_tags d) in
    pret (start, end_, mkDirs (d_version d) tags).

  (** src/event/parser/mod.rs:234-237: skip extra [DocumentEnd] tokens. *)
  Fixpoint skip_document_ends (fuel : nat) : P unit :=
    match fuel with
    | O => pfail Fuel
    | S fuel' =>
        do '(_, t) <- peek;
        match t with
        | MDocumentEnd => pop ;; skip_document_ends fuel'
        | _ => pret tt
        end
    end.

  (** src/event/parser/mod.rs:1294-1301, [tags_to_owned]. *)
  Definition tags_to_owned (m : tag_map) : tag_map :=
    map (fun hp => (own (fst hp), own (snd hp))) m.

  (** src/event/parser/mod.rs:310-316: the delivered directives become the active
      ones. *)
  Definition activate (d : directives) : P unit :=
    pupd (set_dirs (mkDirs (d_version d) (tags_to_owned (d_tags d)))).

  (** src/event/parser/mod.rs:218-319, [document_start]. *)
  Definition document_start (implicit first : bool) : P (option event) :=
    (if implicit then pret tt else do n <- budget; skip_document_ends n) ;;
    do '(_, t) <- peek;
    let markers :=
      match t with
      | MTagDirective | MVersionDirective | MDocumentStart | MStreamEnd => true
      | _ => false
      end in
    if implicit && negb markers then
      do '(s, e, d) <- scan_document_directives;
      pupd (st_push StDocumentEnd) ;; pupd (st_top StBlockNode) ;; activate d ;;
      deliver s e (EvDocumentStart d true)
    else
      match t with
      | MStreamEnd =>
          if first then
            do '(s, e, d) <- scan_document_directives;
            pupd (st_top StDocumentEnd) ;; activate d ;;
            deliver s e (EvDocumentStart d true)
          else
            pupd (st_top StStreamEnd) ;; pret None
      | _ =>
          do '(s, _, d) <- scan_document_directives;
          do '(_, t) <- peek;
          do e <- match t with
                  | MDocumentStart => do e <- pop; pret (e_read e)
                  | _ => pfail (Err MissingDocumentStart)
                  end;
          pupd (st_push StDocumentEnd) ;; pupd (st_top StDocumentContent) ;; activate d ;;
          deliver s e (EvDocumentStart d false)
      end.

  (** src/event/parser/mod.rs:323-351, [document_end]. *)
  Definition document_end : P (option event) :=
    do '(m, t) <- peek;
    match t with
    | MDocumentEnd =>
        pop ;;
        pupd (st_top (StDocumentStart true false)) ;;
        deliver m m (EvDocumentEnd false)
    | _ =>
        pupd (st_top (StDocumentStart false false)) ;;
        deliver m m (EvDocumentEnd true)
    end.

  (** src/event/parser/mod.rs:1091-1097, [empty_scalar]. *)
  Definition empty_scalar (mark : nat) (k : node_kind) : P (option event) :=
    deliver mark mark (EvScalar (mkNode None None k) empty_scalar_like).

  (** src/event/parser/mod.rs:1174-1194, [fetch_anchor]: the anchor and, if present,
      its mark. *)
  Definition fetch_anchor : P (option (nat * cow)) :=
    do e <- peek_opt;
    match option_map e_marker e with
    | Some MAnchor =>
        do '(m, t) <- consume;
        match t with
        | TAnchor n => pret (Some (m, n))
        | _ => pfail Panic
        end
    | _ => pret None
    end.

  (** src/event/parser/mod.rs:1198-1218, [fetch_tag]. *)
  Definition fetch_tag : P (option (nat * (cow * cow))) :=
    do e <- peek_opt;
    match option_map e_marker e with
    | Some MTag =>
        do '(m, t) <- consume;
        match t with
        | TTag h s => pret (Some (m, (h, s)))
        | _ => pfail Panic
        end
    | _ => pret None
    end.

  (** [*start = s] when a property was found. *)
  Definition mark_or {A} (m : nat) (x : option (nat * A)) : nat :=
    match x with Some (n, _) => n | None => m end.

  (** src/event/parser/mod.rs:1263-1292, [validate_tag]. *)
  Definition validate_tag (tags : tag_map) (n : node) (scalar : bool) : pres node :=
    match n_tag n with
    | None => Ok n
    | Some (h, s) =>
        if scalar && (str_eqb (cow_str h) (bytes "!") && is_empty (cow_str s))
        then Ok (mkNode (n_anchor n) None (n_kind n))
        else
          match tag_get tags (cow_str h) with
          | Some _ => Ok n
          | None => Err UndefinedTag
          end
    end.

  (** src/event/parser/mod.rs:1078-1085 and 1252-1261: the check made on the way out
      of [node]. *)
  Definition checked (s e : nat) (n : node) (scalar : bool) (mk : node -> event_data)
    : P (option event) :=
    fun p r =>
      match validate_tag (d_tags (ps_dirs p)) n scalar with
      | Ok n => (p, r, Ok (Some (mkEvent s e (mk n))))
      | Err x => (p, r, Err x)
      | Panic => (p, r, Panic)
      | Fuel => (p, r, Fuel)
      end.

  (** src/event/parser/mod.rs:996-1010: anchor and tag in either order: the start
      mark, the anchor, the tag. *)
  Definition properties (start : nat) (t : marker)
    : P (nat * option cow * option (cow * cow)) :=
    match t with
    | MAnchor =>
        do a <- fetch_anchor; do g <- fetch_tag;
        pret (mark_or (mark_or start a) g, option_map snd a, option_map snd g)
    | MTag =>
        do g <- fetch_tag; do a <- fetch_anchor;
        pret (mark_or (mark_or start g) a, option_map snd a, option_map snd g)
    | _ => pret (start, None, None)
    end.

  (** src/event/parser/mod.rs:1056-1072: an empty scalar, if there was an anchor or
      a tag; the next token is not consumed. *)
  Definition node_empty (start end_ : nat) (n : node) : P (option event) :=
    match n_anchor n, n_tag n with
    | None, None => pfail (Err MissingNode)
    | _, _ =>
        pupd st_pop ;;
        checked start end_ n true (fun n => EvScalar n empty_scalar_like)
    end.

  (** src/event/parser/mod.rs:1012-1073: the node variants, given the refreshed
      token. *)
  Definition node_variant (block : bool) (start end_ : nat) (n : node) (t : marker)
    : P (option event) :=
    match t with
    | MFlowSequenceStart =>
        pupd (st_top (StFlowSequenceEntry true)) ;;
        checked start end_ n false EvSequenceStart
    | MFlowMappingStart =>
        pupd (st_top (StFlowMappingKey true)) ;;
        checked start end_ n false EvMappingStart
    | MBlockSequenceStart =>
        if block then
          pupd (st_top (StBlockSequenceEntry true)) ;;
          checked start end_ n false EvSequenceStart
        else node_empty start end_ n
    | MBlockMappingStart =>
        if block then
          pupd (st_top (StBlockMappingKey true)) ;;
          checked start end_ n false EvMappingStart
        else node_empty start end_ n
    | MScalar =>
        do '(_, s) <- consume_scalar;
        pupd st_pop ;;
        checked start end_ n true (fun n => EvScalar n s)
    | _ => node_empty start end_ n
    end.

  (** src/event/parser/mod.rs:986-1074: everything but an alias. *)
  Definition node_content (block : bool) (k : node_kind) (start : nat) (t : marker)
    : P (option event) :=
    do '(start, anchor, tag) <- properties start t;
    do '(end_, t) <- peek;
    node_variant block start end_ (mkNode anchor tag k) t.

  (** src/event/parser/mod.rs:966-1086, [node]. *)
  Definition parse_node (block : bool) (k : node_kind) : P (option event) :=
    do '(start, t) <- peek;
    match t with
    | MAlias =>
        pupd st_pop ;;
        do '(m, t) <- consume;
        match t with
        | TAlias n => deliver m m (EvAlias n)
        | _ => pfail Panic
        end
    | _ => node_content block k start t
    end.

  (** src/event/parser/mod.rs:356-387, [explicit_document_content]. *)
  Definition explicit_document_content : P (option event) :=
    do '(_, t) <- peek;
    match t with
    | MVersionDirective | MTagDirective | MDocumentStart | MDocumentEnd | MStreamEnd =>
        pupd st_pop ;; pret None
    | _ => parse_node true Root
    end.

  (** src/event/parser/mod.rs:391-456, [block_sequence_entry]. *)
  Definition block_sequence_entry (first : bool) : P (option event) :=
    (if first then
       do e <- pop;
       debug_assert (marker_eqb (e_marker e) MBlockSequenceStart)
     else pret tt) ;;
    do '(m, t) <- peek;
    match t with
    | MBlockEntry =>
        pop ;;
        do '(_, t) <- peek;
        match t with
        | MBlockEntry | MBlockEnd =>
            pupd (st_top (StBlockSequenceEntry false)) ;; empty_scalar m Entry
        | _ =>
            pupd (st_push (StBlockSequenceEntry false)) ;; parse_node true Entry
        end
    | MBlockEnd => pop ;; pupd st_pop ;; deliver m m EvSequenceEnd
    | _ => pfail (Err MissingBlockEntry)
    end.

  (** src/event/parser/mod.rs:461-521, [block_mapping_key]. *)
  Definition block_mapping_key (first : bool) : P (option event) :=
    (if first then
       do '(_, t) <- peek;
       debug_assert (marker_eqb t MBlockMappingStart) ;;
       pop ;; pret tt
     else pret tt) ;;
    do '(m, t) <- peek;
    match t with
    | MKey =>
        pop ;;
        do '(m, t) <- peek;
        match t with
        | MKey | MValue | MBlockEnd =>
            pupd (st_top StBlockMappingValue) ;; empty_scalar m Key
        | _ => pupd (st_push StBlockMappingValue) ;; parse_node true Key
        end
    | MBlockEnd => pop ;; pupd st_pop ;; deliver m m EvMappingEnd
    | _ => pfail (Err MissingKey)
    end.

  (** src/event/parser/mod.rs:526-570, [block_mapping_value]. *)
  Definition block_mapping_value : P (option event) :=
    do '(m, t) <- peek;
    match t with
    | MValue =>
        pop ;;
        do '(m, t) <- peek;
        match t with
        | MKey | MValue | MBlockEnd =>
            pupd (st_top (StBlockMappingKey false)) ;; empty_scalar m Value
        | _ => pupd (st_push (StBlockMappingKey false)) ;; parse_node true Value
        end
    | _ => pupd (st_top (StBlockMappingKey false)) ;; empty_scalar m Value
    end.

  (** src/event/parser/mod.rs:1220-1250, [fetch_sequence_end], [fetch_mapping_end]. *)
  Definition fetch_end (m : nat) (d : event_data) : P (option event) :=
    pupd st_pop ;; pop ;; deliver m m d.

  (** src/event/parser/mod.rs:574-670, [flow_sequence_entry]. *)
  Definition flow_sequence_entry (first : bool) : P (option event) :=
    (if first then
       do e <- pop;
       debug_assert (marker_eqb (e_marker e) MFlowSequenceStart)
     else pret tt) ;;
    do '(m, t) <- peek;
    match t with
    | MFlowSequenceEnd => fetch_end m EvSequenceEnd
    | _ =>
        (if first then pret tt
         else
           match t with
           | MFlowEntry => pop ;; pret tt
           | _ => pfail (Err MissingFlowSequenceEntryOrEnd)
           end) ;;
        do '(m, t) <- peek;
        match t with
        | MKey =>
            pop ;;
            pupd (st_top StFlowSequenceMappingKey) ;;
            deliver m m (EvMappingStart (mkNode None None Entry))
        | MFlowSequenceEnd => fetch_end m EvSequenceEnd
        | _ => pupd (st_push (StFlowSequenceEntry false)) ;; parse_node false Entry
        end
    end.

  (** src/event/parser/mod.rs:676-719, [flow_sequence_entry_mapping_key]. *)
  Definition flow_sequence_entry_mapping_key : P (option event) :=
    do '(m, t) <- peek;
    match t with
    | MValue | MFlowEntry | MFlowSequenceEnd =>
        pupd (st_top StFlowSequenceMappingValue) ;; empty_scalar m Key
    | _ => pupd (st_push StFlowSequenceMappingValue) ;; parse_node false Key
    end.

  (** src/event/parser/mod.rs:728-760, [flow_sequence_entry_mapping_value]. *)
  Definition flow_sequence_entry_mapping_value : P (option event) :=
    do '(m, t) <- peek;
    let empty := pupd (st_top StFlowSequenceMappingEnd) ;; empty_scalar m Value in
    match t with
    | MValue =>
        pop ;;
        do '(_, t) <- peek;
        match t with
        | MFlowEntry | MFlowSequenceEnd => empty
        | _ => pupd (st_push StFlowSequenceMappingEnd) ;; parse_node false Value
        end
    | _ => empty
    end.

  (** src/event/parser/mod.rs:765-782, [flow_sequence_entry_mapping_end]. *)
  Definition flow_sequence_entry_mapping_end : P (option event) :=
    do '(m, t) <- peek;
    debug_assert (marker_eqb t MFlowEntry || marker_eqb t MFlowSequenceEnd) ;;
    pupd (st_top (StFlowSequenceEntry false)) ;;
    deliver m m EvMappingEnd.

  (** src/event/parser/mod.rs:787-904, [flow_mapping_key]. *)
  Definition flow_mapping_key (first : bool) : P (option event) :=
    (if first then
       do e <- pop;
       debug_assert (marker_eqb (e_marker e) MFlowMappingStart)
     else pret tt) ;;
    do '(m, t) <- peek;
    match t with
    | MFlowMappingEnd => fetch_end m EvMappingEnd
    | _ =>
        (if first then pret tt
         else
           match t with
           | MFlowEntry => pop ;; pret tt
           | _ => pfail (Err MissingFlowMappingEntryOrEnd)
           end) ;;
        do '(m, t) <- peek;
        match t with
        | MKey =>
            pop ;;
            do '(m, t) <- peek;
            match t with
            | MValue | MFlowEntry | MFlowMappingEnd =>
                pupd (st_top (StFlowMappingValue false)) ;; empty_scalar m Key
            | _ => pupd (st_push (StFlowMappingValue false)) ;; parse_node false Key
            end
        | MFlowMappingEnd => fetch_end m EvMappingEnd
        | _ => pupd (st_push (StFlowMappingValue true)) ;; parse_node false Key
        end
    end.

  (** src/event/parser/mod.rs:908-963, [flow_mapping_value]. *)
  Definition flow_mapping_value (empty : bool) : P (option event) :=
    do '(m, t) <- peek;
    let fetch_empty m := pupd (st_top (StFlowMappingKey false)) ;; empty_scalar m Value in
    if empty then fetch_empty m
    else
      match t with
      | MValue =>
          pop ;;
          do '(m, t) <- peek;
          match t with
          | MFlowEntry | MFlowMappingEnd => fetch_empty m
          | _ => pupd (st_push (StFlowMappingKey false)) ;; parse_node false Value
          end
      | _ => fetch_empty m
      end.

  (** src/event/parser/mod.rs:147-175, [state_transition]. *)
  Definition state_transition : P (option event) :=
    do s <- (fun p r => (p, r, Ok (ps_top p)));
    match s with
    | StStreamStart => stream_start
    | StDocumentStart i f => document_start i f
    | StDocumentContent => explicit_document_content
    | StDocumentEnd => document_end
    | StBlockNode => parse_node true Root
    | StFlowNode => parse_node false Root
    | StBlockSequenceEntry f => block_sequence_entry f
    | StBlockMappingKey f => block_mapping_key f
    | StBlockMappingValue => block_mapping_value
    | StFlowSequenceEntry f => flow_sequence_entry f
    | StFlowSequenceMappingKey => flow_sequence_entry_mapping_key
    | StFlowSequenceMappingValue => flow_sequence_entry_mapping_value
    | StFlowSequenceMappingEnd => flow_sequence_entry_mapping_end
    | StFlowMappingKey f => flow_mapping_key f
    | StFlowMappingValue e => flow_mapping_value e
    | StStreamEnd => stream_end
    end.

  (** src/event/parser/mod.rs:137-140, the loop of [get_next_event]. *)
  Fixpoint event_loop (fuel : nat) : P (option event) :=
    fun p r =>
      if ps_done p then (p, r, Ok None)
      else
        match fuel with
        | O => (p, r, Fuel)
        | S fuel' =>
            match state_transition p r with
            | (p', r', Ok (Some e)) => (p', r', Ok (Some e))
            | (p', r', Ok None) => event_loop fuel' p' r'
            | x => x
            end
        end.

  (** src/event/parser/mod.rs:106-143, [next_event] and [get_next_event]; also the
      [Iterator::next] of src/event/mod.rs:318-325 and 360-367.  At most two
      transitions deliver nothing. *)
  Definition next_event : P (option event) := event_loop 3.
End Parser.
Arguments next_event {R} T debug.

(** The source the library uses: a [PeekReader] over a reader (event/mod.rs:233-240).
    The budget is an upper bound of the tokens that can still arrive. *)
Definition input_size (i : input) : nat :=
  match i with
  | Borrow t => List.length t
  | Own o => List.length (List.concat (o_tail o)) + List.length (o_head o) + src_size (o_src o)
  end.
Definition peek_budget (p : peek_reader) : nat :=
  let r := pk_reader p in
  (match pk_peek p with Some _ => 1 | None => 0 end)
  + q_len (r_q r) + List.length (c_indents (sc_cxt (r_sc r)))
  + 8 * input_size (r_in r) + 16.
Definition peek_source : token_source peek_reader := mkSource _ pk_look pk_pop peek_budget.

(** A source that delivers the tokens of a list. *)
Definition list_source : token_source (list entry) :=
  mkSource _ (fun l => (l, Ok (hd_error l)))
             (fun l => (tl l, Ok (hd_error l)))
             (@List.length entry).

(** src/event/flag.rs:82-94, [as_scanner]. *)
Definition as_scanner (lazy : bool) : flags := mkFlags false lazy.

(** src/event/mod.rs:233-240, [Events::new]. *)
Definition events_new (i : input) (lazy : bool) : parser * peek_reader :=
  (parser0, peek_new (reader_new i (as_scanner lazy))).

(** What a consumer of the iterator sees: the results of [n] calls of [next]. *)
Fixpoint run_events {R} (T : token_source R) (debug : bool) (n : nat) (p : parser) (r : R)
  : list (pres (option event)) :=
  match n with
  | O => []
  | S n' =>
      let '(p', r', x) := next_event T debug p r in x :: run_events T debug n' p' r'
  end.
