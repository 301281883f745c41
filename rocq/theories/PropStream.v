(** Properties C09, C12-C16, C19, C30, C33: the stream of tokens of a text. *)
From Verif Require Import SpecUtf8 SpecStream SpecHarmless SpecBlank Utf8Facts PeekFacts StreamFacts HarmlessFacts.
Open Scope nat_scope.

(** C09: no request for tokens runs for ever, whatever was asked before. *)
Theorem C09_requests_return :
  forall (t : str) (o : flags), well_formed t ->
    forall s l x, consumes (open t o) s = (l, x) -> x <> Fuel.
Proof. exact (fun t o W s l x E => proj1 (stream_fuel t o (proj2 (valid_iff t) W) s l x E)). Qed.
Print Assumptions C09_requests_return.

(** C09: the number of tokens is linear in the length of the text. *)
Theorem C09_tokens_bounded :
  forall (t : str) (o : flags), well_formed t ->
    forall s l x, consumes (open t o) s = (l, x) -> List.length l <= 6 * List.length t + 4.
Proof. exact (fun t o W => stream_length t o (proj2 (valid_iff t) W)). Qed.
Print Assumptions C09_tokens_bounded.

(** C09: each successful request makes progress, so that after |t| + 3 of them the
    end of the stream has been scanned. *)
Theorem C09_stream_ends :
  forall (t : str) (o : flags), well_formed t ->
    forall s l r, consumes (open t o) s = (l, Ok r) ->
      List.length t + 3 <= count_occ request_dec s Fill ->
      exists e, In e (l ++ pending r) /\ e_wrap e = Tok TStreamEnd.
Proof. exact (fun t o W => stream_finishes t o (proj2 (valid_iff t) W)). Qed.
Print Assumptions C09_stream_ends.

(** C12: tokens are taken in the order of their positions, whenever they are taken,
    and no position lies beyond the text. *)
Theorem C12_tokens_in_order :
  forall (t : str) (o : flags), well_formed t ->
    forall s l x, consumes (open t o) s = (l, x) ->
      in_order l /\ Forall (fun e => e_read e <= List.length t) l.
Proof. exact (fun t o W => stream_order t o (proj2 (valid_iff t) W)). Qed.
Print Assumptions C12_tokens_in_order.

(** C13: of the tokens two consumers of the same text have taken, one list begins with
    the other; if both have met an error, it is the same. *)
Theorem C13_schedules_agree :
  forall (t : str) (o : flags), well_formed t ->
    forall s1 l1 x1 s2 l2 x2,
      consumes (open t o) s1 = (l1, x1) -> consumes (open t o) s2 = (l2, x2) ->
      ((exists r, l2 = l1 ++ r) \/ (exists r, l1 = l2 ++ r)) /\
      ((forall r, x1 <> Ok r) -> (forall r, x2 <> Ok r) -> x1 = x2).
Proof. exact (fun t o W => stream_schedules t o (proj2 (valid_iff t) W)). Qed.
Print Assumptions C13_schedules_agree.

(** C13: a consumer that has taken all there is has taken what any other takes, and
    no other meets an error. *)
Theorem C13_complete :
  forall (t : str) (o : flags), well_formed t ->
    forall s1 l1 r1 s2 l2 x2,
      consumes (open t o) s1 = (l1, Ok r1) -> reader_exhausted r1 = true ->
      consumes (open t o) s2 = (l2, x2) ->
      (exists r, l1 = l2 ++ r) /\ exists r2, x2 = Ok r2.
Proof. exact (fun t o W => stream_complete t o (proj2 (valid_iff t) W)). Qed.
Print Assumptions C13_complete.

(** C13: the peeking reader the iterators use, asked [n] times, is such a consumer
    ([C37_peek] in PropBasics covers peeks in between). *)
Theorem C13_peek_reader :
  forall (r : reader) (n : nat), exists s l x,
    consumes r s = (l, x) /\ delivered (taken (peek_new r) n) = l /\
    (forall e, In (Err e) (taken (peek_new r) n) -> x = Err e) /\
    (In Panic (taken (peek_new r) n) -> x = Panic) /\ (In Fuel (taken (peek_new r) n) -> x = Fuel).
Proof. exact (fun r n => taken_schedule n r). Qed.
Print Assumptions C13_peek_reader.

(** C14: the first token is the start of the stream, at position 0, and there is no
    other. *)
Theorem C14_stream_start :
  forall (t : str) (o : flags), well_formed t ->
    forall s l x, consumes (open t o) s = (l, x) ->
      l = [] \/ exists l', l = mkEntry (Tok TStreamStart) 0 :: l' /\
                 forall y, In y l' -> e_marker y <> MStreamStart.
Proof. exact (fun t o W => stream_start t o (proj2 (valid_iff t) W)). Qed.
Print Assumptions C14_stream_start.

(** C14: the end of the stream occurs once, is the last token, and whatever is asked
    after it, no token and no error follow. *)
Theorem C14_stream_end :
  forall (t : str) (o : flags), well_formed t ->
    forall s s' l x e, consumes (open t o) s = (l, x) -> In e l -> e_marker e = MStreamEnd ->
      (exists l', l = l' ++ [e] /\ forall y, In y l' -> e_marker y <> MStreamEnd) /\
      exists r, consumes (open t o) (s ++ s') = (l, Ok r).
Proof. exact (fun t o W => stream_end t o (proj2 (valid_iff t) W)). Qed.
Print Assumptions C14_stream_end.

(** C15: at no point have more block collections been closed than opened. *)
Theorem C15_blocks_nested :
  forall (t : str) (o : flags), well_formed t ->
    forall s l x, consumes (open t o) s = (l, x) -> nested block_open block_close l.
Proof. exact (fun t o W s l x E => proj1 (stream_nested t o (proj2 (valid_iff t) W) s l x E)). Qed.
Print Assumptions C15_blocks_nested.

(** C15: when the stream ends with no flow collection open, each block collection has
    been closed. *)
Theorem C15_blocks_closed :
  forall (t : str) (o : flags), well_formed t ->
    forall s l x e, consumes (open t o) s = (l, x) -> In e l -> e_marker e = MStreamEnd ->
      count flow_open l = count flow_close l -> count block_open l = count block_close l.
Proof. exact (fun t o W => stream_balanced t o (proj2 (valid_iff t) W)). Qed.
Print Assumptions C15_blocks_closed.

(** C16: at no point have more flow collections been closed than opened. *)
Theorem C16_flows_nested :
  forall (t : str) (o : flags), well_formed t ->
    forall s l x, consumes (open t o) s = (l, x) -> nested flow_open flow_close l.
Proof. exact (fun t o W s l x E => proj2 (stream_nested t o (proj2 (valid_iff t) W) s l x E)). Qed.
Print Assumptions C16_flows_nested.

(** C16: the flow depth of the scanner is the number of flow collections opened less
    those closed. *)
Theorem C16_flow_depth :
  forall (t : str) (o : flags), well_formed t ->
    forall s l r, consumes (open t o) s = (l, Ok r) ->
      c_flow (sc_cxt (r_sc r)) + count flow_close (l ++ pending r) = count flow_open (l ++ pending r).
Proof. exact (fun t o W => stream_depth t o (proj2 (valid_iff t) W)). Qed.
Print Assumptions C16_flow_depth.

(** C16: when as many have been closed as opened and, after blanks, line breaks and
    comments, a closing bracket is next, the request fails. *)
Theorem C16_underflow_is_error :
  forall (t : str) (o : flags), well_formed t ->
    forall s l r c rest, consumes (open t o) s = (l, Ok r) -> l <> [] ->
      let left := skipn (sc_offset (r_sc r)) t in
      skips false left (c :: rest) -> c = 125%N (* } *) \/ c = 93%N (* ] *) ->
      count flow_open (l ++ pending r) = count flow_close (l ++ pending r) ->
      (exists e, snd (reader_scan r) = Err (RScan e)) \/
      snd (reader_scan r) = Panic /\ ~ Forall (fun x => x < 128)%N left.
Proof. exact (fun t o W => stream_underflow t o (proj2 (valid_iff t) W)). Qed.
Print Assumptions C16_underflow_is_error.

(** C19 is false: valid texts make the scanner panic. *)
Theorem C19_no_panic_refuted :
  exists ts : list str, List.length ts = 8 /\ Forall well_formed ts /\
    forall t, In t ts -> exists s, consumes (open t (mkFlags false false)) s = ([], Panic).
Proof. exact (ex_intro _ _ panicking_texts). Qed.
Print Assumptions C19_no_panic_refuted.

(** C19, for harmless texts.  Missing: texts with other than ASCII characters, with
    percent escapes of octets above 127, with escapes of what is no character and, for
    eager readers, with headers of block scalars, of which some panic. *)
Theorem C19_no_panic_partial :
  forall (t : str) (o : flags), harmless (lazy_mode o) t ->
    forall s l x, consumes (open t o) s = (l, x) -> x <> Panic /\ x <> Fuel.
Proof. exact harmless_runs. Qed.
Print Assumptions C19_no_panic_partial.

(** C30, for texts without verbatim tags; in lazy mode up to the end of the text. *)
Theorem C30_positions_partial :
  forall (t : str) (o : flags), well_formed t -> no_verbatim_tag t ->
    forall s l r, consumes (open t o) s = (l, Ok r) ->
      lazy_mode o = false \/ sc_offset (r_sc r) < List.length t ->
      let st := sc_st (r_sc r) in
      sread st = sc_offset (r_sc r) /\ position t (sread st) (slines st) (scol st).
Proof. exact (fun t o W NV s l r E => stream_position t o (proj2 (valid_iff t) W) s l r E NV). Qed.
Print Assumptions C30_positions_partial.

(** C30 is false: after a verbatim tag the counted bytes are too few, and a lazy block
    scalar whose header ends the text counts a line that is not there. *)
Theorem C30_positions_refuted :
  (exists t s r, well_formed t /\ consumes (open t (mkFlags false false)) s = ([], Ok r) /\
     sc_offset (r_sc r) = 14 /\ sread (sc_st (r_sc r)) = 11) /\
  (exists t s r, well_formed t /\ consumes (open t (mkFlags false true)) s = ([], Ok r) /\
     sc_offset (r_sc r) = 1 /\ slines (sc_st (r_sc r)) = 1 /\ forall c, ~ position t 1 1 c).
Proof. exact inexact_texts. Qed.
Print Assumptions C30_positions_refuted.

(** C33: each Key token belongs to a place in the text where a [?] was read or where
    a key of at most 1024 bytes on one line is followed by [:]; without verbatim tags
    that place is its position. *)
Theorem C33_implicit_keys :
  forall (t : str) (o : flags), well_formed t ->
    forall s l x e, consumes (open t o) s = (l, x) -> In e l -> e_wrap e = Tok TKey ->
      exists n, (no_verbatim_tag t -> n = e_read e) /\ (explicit_key t n \/ implicit_key t n).
Proof. exact key_places. Qed.
Print Assumptions C33_implicit_keys.

(** ** Instances *)
Definition sample : str := bytes "a: [b, {c: d}] # e" ++ [10%N] ++ bytes "? 'f'" ++ [10%N] ++ bytes ": - g".
Definition eager : flags := mkFlags false false.
Definition at_once : list request := repeat Fill 40 ++ repeat Pull 40.
Definition step_by_step : list request := flat_map (fun _ => [Fill; Pull; Pull]) (seq 0 40).
Definition kinds (l : list entry) : list (marker * nat) := map (fun e => (e_marker e, e_read e)) l.

Example sample_well_formed : well_formed sample.
Proof. apply valid_iff. vm_compute. reflexivity. Qed.
Example escapes_harmless :
  harmless false (bytes "!a%20b " ++ [34%N] ++ bytes "\u00e9 \U0001F600" ++ [34%N] ++ bytes ": a > b|c") /\
  ~ harmless true ([34%N] ++ bytes "\ud800" ++ [34%N]).
Proof.
  split; [apply harmlessb_harmless; vm_compute; reflexivity|]. intros (_ & _ & _ & H).
  assert (scalar_value 55296) as [_ S]; [|apply S; split; discriminate].
  apply (H [34%N] (bytes "\ud800") 55296%N [34%N] eq_refl).
  apply (den_number 117%N 4 (bytes "d800")); [cbn; tauto|reflexivity|].
  change (bytes "d800") with [100; 56; 48; 48]%N.
  apply Forall_cons; [right; right; split; discriminate|].
  repeat (apply Forall_cons; [left; split; discriminate|]). apply Forall_nil.
Qed.
(** A lazy reader of the text for which an eager one panics. *)
Example lazy_harmless :
  harmless true (bytes "a: |") /\ ~ harmless false (bytes "a: |") /\
  (exists r, snd (consumes (open (bytes "a: |") (mkFlags false true)) (repeat Fill 6)) = Ok r) /\
  snd (consumes (open (bytes "a: |") (mkFlags false false)) (repeat Fill 6)) = Panic.
Proof.
  split; [apply harmlessb_harmless; vm_compute; reflexivity|]. split.
  - intros (_ & H & _). apply (H eq_refl (bytes "a: ") 124%N [] eq_refl (or_introl eq_refl)).
    exists [], [], [], []. repeat split; auto.
  - split; [eexists; vm_compute; reflexivity|vm_compute; reflexivity].
Qed.
Example sample_harmless : harmless false sample /\ no_verbatim_tag sample.
Proof. split; [apply harmlessb_harmless|apply no_bang_no_tag]; vm_compute; reflexivity. Qed.
(** C12-C15, C33: all tokens, with explicit and implicit keys; both consumers take them. *)
Example sample_tokens :
  kinds (fst (consumes (open sample eager) at_once)) =
  [(MStreamStart, 0); (MBlockMappingStart, 0); (MKey, 0); (MScalar, 1); (MValue, 2);
   (MFlowSequenceStart, 4); (MScalar, 5); (MFlowEntry, 6); (MFlowMappingStart, 8);
   (MKey, 8); (MScalar, 9); (MValue, 10); (MScalar, 12); (MFlowMappingEnd, 13);
   (MFlowSequenceEnd, 14); (MKey, 20); (MScalar, 24); (MValue, 26); (MBlockSequenceStart, 27);
   (MBlockEntry, 28); (MScalar, 30); (MBlockEnd, 30); (MBlockEnd, 30); (MStreamEnd, 30)].
Proof. vm_compute. reflexivity. Qed.
Example sample_schedules :
  fst (consumes (open sample eager) at_once) = fst (consumes (open sample eager) step_by_step) /\
  List.length sample + 3 <= count_occ request_dec at_once Fill /\
  (exists r, snd (consumes (open sample eager) at_once) = Ok r /\ reader_exhausted r = true) /\
  delivered (taken (peek_new (open sample eager)) 40) = fst (consumes (open sample eager) at_once).
Proof.
  split; [vm_compute; reflexivity|]. split; [apply Nat.leb_le; vm_compute; reflexivity|].
  split; [eexists; split; vm_compute; reflexivity|vm_compute; reflexivity].
Qed.
Example sample_keys : explicit_key sample 20 /\ implicit_key sample 8.
Proof.
  split; [eexists; vm_compute; reflexivity|].
  exists (bytes "c"). eexists. split; [vm_compute; reflexivity|]. split; [discriminate|].
  intros j J. destruct j; [reflexivity|cbn in J; inversion J; inversion H0].
Qed.
(** C13: an error after some tokens, met by both consumers. *)
Example broken_text :
  consumes (open (bytes "a: b" ++ [10%N] ++ bytes "c: @") eager) step_by_step
  = consumes (open (bytes "a: b" ++ [10%N] ++ bytes "c: @") eager) (firstn 30 step_by_step) /\
  exists e, snd (consumes (open (bytes "a: b" ++ [10%N] ++ bytes "c: @") eager) at_once) = Err e.
Proof. split; [vm_compute; reflexivity|]. eexists. vm_compute. reflexivity. Qed.
(** C16: the closing bracket of [[a] # b], newline, [}]. *)
Definition unopened : str := bytes "[a] # b" ++ [10%N] ++ bytes " }".
Example unopened_runs : exists l r,
  consumes (open unopened eager) [Fill; Pull; Fill] = (l, Ok r) /\ l <> [] /\
  skips false (skipn (sc_offset (r_sc r)) unopened) (bytes "}") /\
  count flow_open (l ++ pending r) = count flow_close (l ++ pending r).
Proof.
  eexists. eexists. split; [vm_compute; reflexivity|]. split; [discriminate|].
  split; [|vm_compute; reflexivity].
  match goal with |- skips _ ?x _ => let y := eval vm_compute in x in change x with y end.
  apply sk_blank; [reflexivity|]. apply sk_open; [reflexivity|].
  apply sk_comment; [discriminate|reflexivity|]. apply sk_comment; [discriminate|reflexivity|].
  apply sk_break; [reflexivity|]. apply sk_blank; [reflexivity|]. apply sk_end; reflexivity.
Qed.
(** C30: a place on the third line. *)
Example sample_position : exists r, snd (consumes (open sample eager) (repeat Fill 11)) = Ok r /\
  sc_st (r_sc r) = mkStats 28 2 3.
Proof. eexists. split; vm_compute; reflexivity. Qed.
