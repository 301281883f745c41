(** What one round of the scanner does, as a relation between states: the pieces of
    text it reads, the tokens it queues, the context it leaves. *)
From Verif Require Export LazyFacts Scanner.

(** Entries queued at once. *)
Definition pushes (es : list entry) (q : tokens) : tokens := fold_left q_push es q.
Lemma pushes_app es fs q : pushes (es ++ fs) q = pushes fs (pushes es q).
Proof. apply fold_left_app. Qed.

(** Tokens of one punctuation character. *)
Definition punct (c : N) : option token :=
  (if c =? 123 then Some TFlowMappingStart else if c =? 91 then Some TFlowSequenceStart
   else if c =? 125 then Some TFlowMappingEnd else if c =? 93 then Some TFlowSequenceEnd
   else if c =? 44 then Some TFlowEntry else if c =? 45 then Some TBlockEntry
   else if c =? 63 then Some TKey else if c =? 58 then Some TValue else None)%N.

(** The result of [roll_indent]: the new context and the entry it queues. *)
Definition roll (c : context) (st : stats) (map : bool) : context * list entry :=
  let tok := mkEntry (Tok (if map then TBlockMappingStart else TBlockSequenceStart)) (sread st) in
  if is_block c then
    if indent_ltb (cur_indent c) (scol st) then
      (indent_increment c (scol st) (slines st) map false, [tok])
    else if negb map && indent_eqb (cur_indent c) (scol st) then
      match c_indents c with
      | e :: _ => if ie_map e then (indent_increment c (scol st) (slines st) map true, [tok]) else (c, [])
      | [] => (c, [])
      end
    else (c, [])
  else (c, []).

(** Where a token with content comes from: the leaf scanner that produced it, with
    the number of bytes taken and the position after it. *)
Inductive content (o : flags) (b : str) (st : stats) (c : context)
  : maybe_token -> nat -> stats -> Prop :=
| ct_entry : at_is b 0 44 = true -> content o b st c (Tok TFlowEntry) 1 (supd st 1 0 1)
| ct_mark (start : bool) :
    starts_with b (bytes (if start then "---" else "...")) = true -> scol st = 0 -> is_wsZ_at b 3 = true ->
    content o b st c (Tok (if start then TDocumentStart else TDocumentEnd)) 3 (supd st 3 0 3)
| ct_directive k tok buf n d : at_is b 0 37 = true -> scol st = 0 ->
    directive_kind_of (skipn 1 b) = Ok k ->
    scan_directive o (skipn (1 + directive_len k) b)
      (supd stats0 (1 + directive_len k) 0 (1 + directive_len k)) k = Ok (tok, buf, d) ->
    n = consumed b buf -> content o b st c (Tok tok) n (sadd st d)
| ct_tag tok n d : at_is b 0 33 = true -> scan_node_tag o b stats0 = Ok (tok, n, d) ->
    content o b st c (Tok tok) n (sadd st d)
| ct_anchor alias tok buf n d : at_is b 0 (if alias : bool then 42 else 38) = true ->
    scan_anchor o b stats0 alias = Ok (tok, buf, d) -> n = consumed b buf ->
    content o b st c (Tok tok) n (sadd st d)
| ct_flow single tok n d : at_is b 0 (if single : bool then 39 else 34) = true ->
    scan_flow_scalar o b stats0 single = Ok (tok, n, d) -> content o b st c tok n (sadd st d)
| ct_plain tok n st' : plain_first b st (is_block c) ->
    scan_plain_scalar o b st c = Ok (tok, n, st') -> content o b st c tok n st'
| ct_block (fold : bool) tok n st' : at_is b 0 (if fold then 62 else 124) = true -> is_block c = true ->
    scan_block_scalar o b st c fold = Ok (tok, n, st') -> content o b st c tok n st'.

(** Position bookkeeping of one token: exact but for verbatim tags (the brackets are
    not counted) and lazy block scalars whose header ends the text (a line too many). *)
Definition counted (b : str) (st : stats) (b' : str) (st' : stats) : Prop :=
  List.length b' < List.length b /\ valid b' /\ (exists n, b' = skipn n b /\ is_boundary b n = true) /\
  sread st <= sread st' /\ sread st' + List.length b' <= sread st + List.length b /\
  slines st <= slines st'.
Definition exact (b : str) : Prop := starts_with b (bytes "!<") = false.
(** The header of a lazy block scalar counts a line break at the end of the text. *)
Definition tracks (o : flags) (b : str) (st : stats) (b' : str) (st' : stats) : Prop :=
  reads b st b' st' \/ lazy_mode o = true /\ b' = [].

(** What may happen to the saved key. *)
Definition key_kept (sc : scanner) (k : option key_save) : Prop :=
  k = sc_key sc \/ key_possible_now k = false \/ exists req, k = Some (new_key (sc_st sc) req).
Definition key_behind (sc : scanner) (st' : stats) (k : option key_save) : Prop :=
  k = sc_key sc \/ key_possible_now k = false \/ exists req, k = Some (new_key st' req).
Definition key_next (sc : scanner) (st' : stats) (k : option key_save) : Prop :=
  k = sc_key sc \/ key_possible_now k = false \/
  (exists req, k = Some (new_key (sc_st sc) req)) \/ (exists req, k = Some (new_key st' req)).

(** Tokens before which the block collections are closed. *)
Definition parts_documents (m : marker) : bool :=
  match m with
  | MDocumentStart | MDocumentEnd | MVersionDirective | MTagDirective => true
  | _ => false
  end.

(** The token of a round: state before it, entries queued, state after it. *)
Inductive act (o : flags) (b : str) (sc : scanner) : list entry -> str -> scanner -> Prop :=
| act_content tok n st' ska key b' :
    content o b (sc_st sc) (sc_cxt sc) tok n st' -> b' = skipn n b ->
    counted b (sc_st sc) b' st' -> (exact b -> tracks o b (sc_st sc) b' st') ->
    (starts_with b (bytes "!<") = true -> at_is b' 0 62 = true) ->
    key_kept sc key -> (at_is b 0 62 = true -> key_possible_now key = false) ->
    (parts_documents (maybe_marker tok) = true -> is_block (sc_cxt sc) = true -> c_indents (sc_cxt sc) = []) ->
    (parts_documents (maybe_marker tok) = true -> ska = false /\ key = None) ->
    act o b sc [mkEntry tok (sread st')] b'
      (mkSc (sc_offset sc) (sc_state sc) ska st' key (sc_cxt sc))
| act_open (map : bool) r key :
    b = (if map then 123%N else 91%N) :: r -> key_behind sc (supd (sc_st sc) 1 0 1) key ->
    act o b sc [mkEntry (Tok (if map then TFlowMappingStart else TFlowSequenceStart)) (sread (sc_st sc) + 1)]
      r (mkSc (sc_offset sc) (sc_state sc) true (supd (sc_st sc) 1 0 1) key (flow_increment (sc_cxt sc)))
| act_close (map : bool) r c' :
    b = (if map then 125%N else 93%N) :: r -> flow_decrement (sc_cxt sc) = Ok c' ->
    act o b sc [mkEntry (Tok (if map then TFlowMappingEnd else TFlowSequenceEnd)) (sread (sc_st sc) + 1)]
      r (mkSc (sc_offset sc) (sc_state sc) false (supd (sc_st sc) 1 0 1) None c')
| act_dash r c1 pre :
    b = 45%N :: r -> is_block (sc_cxt sc) = true -> sc_ska sc = true ->
    roll (sc_cxt sc) (sc_st sc) false = (c1, pre) ->
    act o b sc (pre ++ [mkEntry (Tok TBlockEntry) (sread (sc_st sc) + 1)])
      r (mkSc (sc_offset sc) (sc_state sc) true (supd (sc_st sc) 1 0 1) None (refresh_line c1 (sc_st sc)))
| act_key r c1 pre :
    b = 63%N :: r -> (is_block (sc_cxt sc) = true -> sc_ska sc = true) ->
    roll (sc_cxt sc) (sc_st sc) true = (c1, pre) ->
    act o b sc (pre ++ [mkEntry (Tok TKey) (sread (sc_st sc) + 1)])
      r (mkSc (sc_offset sc) (sc_state sc) (is_block (sc_cxt sc)) (supd (sc_st sc) 1 0 1) None c1)
| act_value_key r k c1 pre :
    b = 58%N :: r -> sc_key sc = Some k -> kp_allowed (k_possible k) = true ->
    roll (sc_cxt sc) (k_stats k) true = (c1, pre) ->
    act o b sc (pre ++ [mkEntry (Tok TKey) (sread (k_stats k)); mkEntry (Tok TValue) (sread (sc_st sc) + 1)])
      r (mkSc (sc_offset sc) (sc_state sc) false (supd (sc_st sc) 1 0 1) None c1)
| act_value r c1 pre :
    b = 58%N :: r -> key_possible_now (sc_key sc) = false ->
    (is_block (sc_cxt sc) = true -> sc_ska sc = true) ->
    roll (sc_cxt sc) (sc_st sc) true = (c1, pre) ->
    act o b sc (pre ++ [mkEntry (Tok TValue) (sread (sc_st sc) + 1)])
      r (mkSc (sc_offset sc) (sc_state sc) (is_block (sc_cxt sc)) (supd (sc_st sc) 1 0 1) None c1).

(** Closing [n] block collections. *)
Definition closes (c : context) (n : nat) (c' : context) : Prop :=
  n <= List.length (c_indents c) /\ c_indents c' = skipn n (c_indents c) /\
  c_flow c' = c_flow c /\ c_started c' = c_started c.
Definition ends (n mark : nat) : list entry := repeat (mkEntry (Tok TBlockEnd) mark) n.

(** Why they are closed: the column, the end of the document, or a sequence in the column
    of its mapping that does not go on. *)
Inductive cause (b : str) (sc : scanner) (n : nat) (c : context) : Prop :=
| cause_column : indent_decrement (sc_cxt sc) (Some (scol (sc_st sc))) = (c, n) -> cause b sc n c
| cause_document : indent_decrement (sc_cxt sc) None = (c, n) ->
    b = [] \/ scol (sc_st sc) = 0 /\ (at_is b 0 37 = true \/
      exists start : bool, starts_with b (bytes (if start then "---" else "...")) = true /\ is_wsZ_at b 3 = true) ->
    cause b sc n c
| cause_zero e l : c_indents (sc_cxt sc) = e :: l -> ie_zero e = true -> ie_map e = false -> at_is b 0 45 = false ->
    pop_indent (sc_cxt sc) = (c, n) -> cause b sc n c.

(** Bookkeeping without a token. *)
Inductive quiet : str -> scanner -> list entry -> str -> scanner -> Prop :=
| qt_refl b sc : quiet b sc [] b sc
| qt_ws b sc b1 st1 ska es b' sc' :
    skips false b b1 -> reads b (sc_st sc) b1 st1 ->
    quiet b1 (mkSc (sc_offset sc) (sc_state sc) ska st1 (sc_key sc) (sc_cxt sc)) es b' sc' ->
    quiet b sc es b' sc'
| qt_key b sc k es b' sc' :
    key_possible_now k = false -> quiet b (set_key k sc) es b' sc' -> quiet b sc es b' sc'
| qt_ska b sc v es b' sc' : quiet b (set_ska v sc) es b' sc' -> quiet b sc es b' sc'
| qt_ends b sc n c es b' sc' :
    closes (sc_cxt sc) n c -> cause b sc n c -> skips false b b -> quiet b (set_cxt c sc) es b' sc' ->
    quiet b sc (ends n (sread (sc_st sc)) ++ es) b' sc'.

(** A saved key that may still become a key is on this line, at most 1024 bytes back. *)
Definition fresh (sc : scanner) : Prop :=
  match sc_key sc with
  | Some k => kp_allowed (k_possible k) = true ->
      slines (sc_st sc) <= slines (k_stats k) /\
      (N.of_nat (sread (sc_st sc)) <= N.of_nat (sread (k_stats k)) + 1024)%N
  | None => True
  end.

(** In block context, no collection further to the right is open. *)
Definition level (sc : scanner) : Prop :=
  is_block (sc_cxt sc) = true -> c_indents (sc_cxt sc) = [] \/ c_indent (sc_cxt sc) <= scol (sc_st sc).

(** A sequence in the column of its mapping is open only on the line of its last dash or
    before a dash. *)
Definition dashed (b : str) (sc : scanner) : Prop :=
  forall e l, c_indents (sc_cxt sc) = e :: l -> ie_zero e = true -> ie_map e = false ->
    at_is b 0 45 = false -> slines (sc_st sc) <= ie_line e.
Definition undashed (sc sc' : scanner) : Prop :=
  exists e, c_indents (sc_cxt sc) = e :: c_indents (sc_cxt sc') /\ ie_zero e = true /\ ie_map e = false.

Inductive round (o : flags) (b : str) (sc : scanner) : list entry -> str -> scanner -> Prop :=
| rd_start : sc_state sc = SStart ->
    round o b sc [mkEntry (Tok TStreamStart) (sread (sc_st sc))] b (set_state SStream (set_ska true sc))
| rd_end es sc1 : sc_state sc = SStream -> quiet b sc es [] sc1 -> sc_key sc1 = None ->
    (is_block (sc_cxt sc1) = true -> c_indents (sc_cxt sc1) = []) ->
    round o b sc (es ++ [mkEntry (Tok TStreamEnd) (sread (sc_st sc1))]) [] (set_state SDone sc1)
| rd_token e0 e1 es b1 sc0 sc2 sc1 fs b' sc' : sc_state sc = SStream -> quiet b sc e0 b1 sc0 -> skips false b1 b1 ->
    level sc0 -> quiet b1 sc0 e1 b1 sc2 -> dashed b1 sc2 \/ undashed sc0 sc2 -> quiet b1 sc2 es b1 sc1 -> fresh sc1 ->
    act o b1 sc1 fs b' sc' -> round o b sc (e0 ++ e1 ++ es ++ fs) b' sc'.

(** Texts for which no leaf scanner can panic. *)
Definition safe (o : flags) (s : str) : Prop := tame s /\
  forall n st c fold, at_is (skipn n s) 0 (if fold : bool then 62 else 124) = true ->
    scan_block_scalar o (skipn n s) st c fold <> Panic.
