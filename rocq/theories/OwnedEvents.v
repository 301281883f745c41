(** The events of a byte source are those of its text. *)
From Verif Require Export TapeStream ParserEffects.
From Verif Require Import StreamFacts SpecUtf8 SpecOwned SpecContent Buffers OwnedWitness.
From Coq Require Import Lia ZifyBool ZifyN ZifyNat.
Open Scope nat_scope.

(** ** The reader never has fewer bytes in its buffers and to come *)
Definition total (i : input) : nat :=
  match i with
  | Borrow t => List.length t
  | Own w => List.length (List.concat (o_tail w)) + List.length (o_head w) + List.length (bytes_of (o_src w))
  end.
Lemma rest_size src : List.length (bytes_of src) <= src_size src.
Proof.
  induction src as [|i src IH]; [cbn; lia|]. rewrite size_cons. unfold bytes_of in *. cbn [flat_map]. rewrite app_length.
  destruct i; cbn [List.length]; lia.
Qed.
Lemma total_size i : total i <= input_size i.
Proof. destruct i as [t|w]; cbn [total input_size]; [lia|]. pose proof (rest_size (o_src w)). lia. Qed.
Lemma refresh_total w m w' : refresh_buffer w m = (w', Ok tt) -> total (Own w) <= total (Own w').
Proof.
  unfold refresh_buffer. destruct (Nat.leb m _); [|discriminate].
  destruct (read_upto _ (o_src w)) as [[t src] e] eqn:R. apply read_upto_any in R.
  destruct e; [discriminate|]. destruct (valid_utf8 _); [|discriminate]. intros E. injection E as <-.
  cbn [total o_tail o_head o_src]. destruct R as (_ & _ & R). rewrite (R eq_refl). rewrite concat_app, !app_length. cbn [List.concat]. rewrite app_nil_r. lia.
Qed.
Lemma drive_total o fuel : forall w sc q w' sc' q', drive_owned fuel o w sc q = (w', sc', q', Ok tt) -> total (Own w) <= total (Own w').
Proof.
  induction fuel as [|fuel IH]; intros w sc q w' sc' q'; cbn [drive_owned]; [discriminate|].
  destruct (scan_tokens _ _ sc q) as [[sc1 q1] [a|e| |]]; try discriminate.
  - intros E. injection E as <- _ _. lia.
  - destruct e; try discriminate. destruct (refresh_buffer w (sc_offset sc1)) as [w1 [[]|e| |]] eqn:R; try discriminate.
    intros E. apply IH in E. apply refresh_total in R. lia.
Qed.
Lemma scan_total r r' : reader_scan r = (r', Ok tt) -> total (r_in r) <= total (r_in r').
Proof.
  unfold reader_scan, drive. destruct (r_in r) as [t|w].
  - destruct (scan_tokens _ t _ _) as [[sc q] [a|e| |]]; cbn [map_err]; intros E; try discriminate. pose proof (f_equal (fun z => r_in (fst z)) E) as Z. cbn in Z. rewrite <- Z. cbn. lia.
  - destruct (drive_owned _ _ w _ _) as [[[w' sc] q] x] eqn:D. intros E.
    pose proof (f_equal snd E) as X. pose proof (f_equal (fun z => r_in (fst z)) E) as Z. cbn in X, Z. subst x. rewrite <- Z. apply (drive_total _ _ _ _ _ _ _ _ D).
Qed.
Lemma next_total p p' : take_next p = (p', Ok tt) -> total (r_in (pk_reader p)) <= total (r_in (pk_reader p')).
Proof.
  unfold take_next. destruct (pk_peek p); [intros E; injection E as <-; lia|].
  destruct (Nat.eqb _ _).
  - destruct (reader_scan (pk_reader p)) as [r [[]|e| |]] eqn:S; try discriminate. apply scan_total in S.
    destruct (q_pop entry_cmp (r_q r)). intros E. injection E as <-. exact S.
  - destruct (q_pop entry_cmp _). intros E. injection E as <-. cbn. lia.
Qed.
Lemma pop_total p p' x : pk_pop p = (p', Ok x) -> total (r_in (pk_reader p)) <= total (r_in (pk_reader p')).
Proof.
  unfold pk_pop. destruct (pk_peek p); [intros E; injection E as <- _; cbn; lia|]. destruct (reader_exhausted _); [intros E; injection E as <- _; lia|].
  destruct (take_next p) as [p1 [[]|e| |]] eqn:N; try discriminate. apply next_total in N. intros E. injection E as <- _. exact N.
Qed.
Lemma look_total p p' x : pk_look p = (p', Ok x) -> total (r_in (pk_reader p)) <= total (r_in (pk_reader p')).
Proof.
  unfold pk_look. destruct (pk_peek p); [intros E; injection E as <- _; lia|]. destruct (reader_exhausted _); [intros E; injection E as <- _; lia|].
  destruct (take_next p) as [p1 [[]|e| |]] eqn:N; try discriminate. apply next_total in N. intros E. injection E as <- _. exact N.
Qed.

(** ** Any reader with its tokens on a tape *)
Definition feeding (n : nat) (p : peek_reader) (tp : tape) : Prop :=
  on_tape p tp /\ n <= total (r_in (pk_reader p)) /\ List.length (fst tp) <= 6 * n + 4.
Lemma feeding_pop n p tp : feeding n p tp ->
  snd (pk_pop p) = tape_next tp /\ (feeding n (fst (pk_pop p)) (tl (fst tp), snd tp) \/ broken tp /\ fst tp = []).
Proof.
  intros (O & I & L). destruct tp as [[|e l] x]; cbn [fst snd tl].
  - apply on_end in O. split; [exact O|]. destruct x as [[]|e| |].
    2-4: right; split; [intros a; discriminate|reflexivity].
    left. cbn in *.
    destruct (pk_pop p) as [p' y] eqn:E. cbn in O. subst y. cbn [fst]. split; [|split; [|cbn; lia]].
    + apply on_end. rewrite (pop_last _ _ E). reflexivity.
    + pose proof (pop_total _ _ _ E). lia.
  - apply on_head in O as [H O]. split; [exact H|]. left. split; [exact O|].
    destruct (pk_pop p) as [p' y] eqn:E. cbn in H. subst y. pose proof (pop_total _ _ _ E). cbn [fst snd] in *. cbn in L. lia.
Qed.
Lemma feeding_look n p tp : feeding n p tp ->
  snd (pk_look p) = tape_next tp /\ (feeding n (fst (pk_look p)) tp \/ broken tp /\ fst tp = []).
Proof.
  intros R. destruct (feeding_pop n p tp R) as [P _]. destruct R as (O & I & L).
  destruct (pk_look p) as [p' y] eqn:E. cbn [fst snd] in *.
  assert (K : (exists x, y = Ok x) \/ forall x, y <> Ok x) by (destruct y; [left; eauto|right; discriminate..]).
  destruct K as [(x & ->)|N].
  - destruct (look_then_pop _ _ _ E) as (A & B & _). split; [congruence|]. left. split; [|split; [|exact L]].
    + destruct tp as [[|e l] z]; [apply on_end in O; apply on_end|apply on_head in O; apply on_head]; rewrite B; exact O.
    + pose proof (look_total _ _ _ E). lia.
  - pose proof (proj1 (look_fails _ _ _ N) E) as F. rewrite F in P. cbn in P. split; [exact P|]. right.
    subst y. unfold tape_next in N. destruct tp as [[|e l] z]; cbn in *; [|destruct (N _ eq_refl)].
    split; [|reflexivity]. intros a A. cbn in A. subst z. destruct (N _ eq_refl).
Qed.
Lemma feeding_runs n p tp debug m q : feeding n p tp ->
  until_failure (run_events peek_source debug m q p) = until_failure (run_events tape_source debug m q tp) /\
  (snd tp = Ok tt -> run_events peek_source debug m q p = run_events tape_source debug m q tp).
Proof.
  apply (run_sim peek_reader peek_source debug (feeding n)).
  - intros r tp'. apply feeding_look.
  - intros r tp'. apply feeding_pop.
  - intros r tp' (_ & I & L). cbn [ts_budget peek_source]. unfold peek_budget. pose proof (total_size (r_in (pk_reader r))). lia.
Qed.

(** ** Readers whose consumers see the same *)
Definition mates (r r' : reader) : Prop :=
  forall s l x l' x', consumes r s = (l, x) -> consumes r' s = (l', x') -> l = l' /\ alike x x'.
Definition without (r : reader) : reader := mkReader (r_sc r) (snd (q_pop entry_cmp (r_q r))) (r_opts r) (r_exhausted r) (r_in r).

Lemma mates_now r r' : mates r r' -> q_len (r_q r) = q_len (r_q r') /\ reader_exhausted r = reader_exhausted r'.
Proof.
  intros M. destruct (M [] _ _ _ _ eq_refl eq_refl) as [_ [P X]]. split; [|exact X].
  apply (f_equal (@List.length entry)) in P. unfold pending in P. rewrite !map_length in P. exact P.
Qed.
Lemma mates_fill r r' : mates r r' -> 
  match reader_scan r, reader_scan r' with
  | (r1, Ok _), (r2, Ok _) => mates r1 r2
  | (_, Err e), (_, Err e') => e = e'
  | (_, Panic), (_, Panic) => True
  | _, _ => False
  end.
Proof.
  intros M. pose proof (M [Fill]) as H. cbn [consumes] in H.
  destruct (reader_scan r) as [r1 [[]|e| |]] eqn:S1, (reader_scan r') as [r2 [[]|e2| |]] eqn:S2; try (apply (H _ _ _ _ eq_refl eq_refl); fail).
  intros s l x l' x' E E'. apply (M (Fill :: s)); cbn [consumes]; [rewrite S1|rewrite S2]; assumption.
Qed.
Lemma mates_pull r r' : mates r r' -> fst (q_pop entry_cmp (r_q r)) = fst (q_pop entry_cmp (r_q r')) /\ mates (without r) (without r').
Proof.
  intros M. pose proof (M [Pull]) as H. cbn [consumes] in H. unfold without.
  assert (E : fst (q_pop entry_cmp (r_q r)) = fst (q_pop entry_cmp (r_q r'))).
  { destruct (q_pop entry_cmp (r_q r)) as [e q], (q_pop entry_cmp (r_q r')) as [e' q']. destruct (H _ _ _ _ eq_refl eq_refl) as [X _].
    cbn. destruct e, e'; congruence. }
  split; [exact E|]. intros s l x l' x' C C'. pose proof (M (Pull :: s)) as K. cbn [consumes] in K.
  destruct (q_pop entry_cmp (r_q r)) as [e q], (q_pop entry_cmp (r_q r')) as [e' q']. cbn [fst snd] in *. subst e'.
  rewrite C, C' in K. destruct (K _ _ _ _ eq_refl eq_refl) as [X Y]. split; [|exact Y]. destruct e; congruence.
Qed.

Lemma mates_pop r r' : mates r r' -> snd (pk_pop (peek_new r)) = snd (pk_pop (peek_new r')) /\
  (forall x, snd (pk_pop (peek_new r)) = Ok x -> exists r1 r2, fst (pk_pop (peek_new r)) = peek_new r1 /\ fst (pk_pop (peek_new r')) = peek_new r2 /\ mates r1 r2).
Proof.
  intros M. destruct (mates_now r r' M) as [Q X]. unfold pk_pop, peek_new, take_next. cbn [pk_peek pk_reader]. rewrite <- X, <- Q.
  destruct (reader_exhausted r); [split; [reflexivity|]; intros x _; exists r, r'; auto|].
  destruct (Nat.eqb _ 0).
  - pose proof (mates_fill r r' M) as F.
    destruct (reader_scan r) as [r1 [[]|e| |]], (reader_scan r') as [r2 [[]|e2| |]]; try (destruct F; fail);
      try (cbn [snd]; split; [try rewrite F; reflexivity|discriminate]).
    destruct (mates_pull r1 r2 F) as [E N]. unfold without in N.
    destruct (q_pop entry_cmp (r_q r1)) as [a q], (q_pop entry_cmp (r_q r2)) as [a' q']. cbn [fst snd pk_peek pk_reader] in *. subst a'.
    split; [reflexivity|]. intros x _. eexists. eexists. split; [reflexivity|]. split; [reflexivity|exact N].
  - destruct (mates_pull r r' M) as [E N]. unfold without in N.
    destruct (q_pop entry_cmp (r_q r)) as [a q], (q_pop entry_cmp (r_q r')) as [a' q']. cbn [fst snd pk_peek pk_reader] in *. subst a'.
    split; [reflexivity|]. intros x _. eexists. eexists. split; [reflexivity|]. split; [reflexivity|exact N].
Qed.
Lemma mates_tape l x : forall r r', mates r r' -> on_tape (peek_new r') (l, x) -> on_tape (peek_new r) (l, x).
Proof.
  induction l as [|e l IH]; intros r r' M O; destruct (mates_pop r r' M) as [P N].
  - apply on_end. apply on_end in O. congruence.
  - apply on_head. apply on_head in O as [H O]. rewrite P. split; [exact H|]. rewrite P in N. destruct (N _ H) as (r1 & r2 & E1 & E2 & M').
    rewrite E1. rewrite E2 in O. exact (IH _ _ M' O).
Qed.

Definition ends_for_good {A} (xs : list (pres (option A))) : Prop :=
  forall i, nth_error xs i = Some (Ok None) -> forall j, i < j -> j < List.length xs -> nth_error xs j = Some (Ok None).
Lemma ends_tail {A} (x : pres (option A)) xs : ends_for_good (x :: xs) -> ends_for_good xs.
Proof. intros E i H j I J. apply (E (Datatypes.S i) H (Datatypes.S j)); cbn; lia. Qed.
Lemma ends_all {A} (xs : list (pres (option A))) : ends_for_good (Ok None :: xs) -> xs = repeat (Ok None) (List.length xs).
Proof.
  induction xs as [|x xs IH]; intros E; [reflexivity|]. cbn [List.length repeat].
  assert (X : x = Ok None).
  { assert (H : nth_error (Ok None :: x :: xs) 1 = Some (Ok None)) by (apply (E 0 eq_refl 1); cbn; lia). injection H as H. exact H. }
  subst x. f_equal. apply IH. apply (ends_tail _ _ E).
Qed.
Lemma agree_all {A} (xs ys : list (pres (option A))) : List.length xs = List.length ys -> ends_for_good xs -> ends_for_good ys ->
  until_failure xs = until_failure ys -> Forall (fun y => exists a, y = Ok a) ys -> xs = ys.
Proof.
  revert ys. induction xs as [|x xs IH]; intros [|y ys] L X Y U F; try discriminate; [reflexivity|].
  inversion F as [|? ? (a & ->) F']; subst. destruct a as [e|]; cbn [until_failure] in U.
  - destruct x as [[e'|]|e'| |]; cbn [until_failure] in U; try discriminate. injection U as -> U. f_equal.
    apply IH; auto; [apply (ends_tail _ _ X)|apply (ends_tail _ _ Y)].
  - destruct x as [[e'|]|e'| |]; cbn [until_failure] in U; try discriminate.
    injection L as L. rewrite (ends_all xs X), (ends_all ys Y), L. reflexivity.
Qed.
Lemma run_size {R} (T : token_source R) debug n : forall p r, List.length (run_events T debug n p r) = n.
Proof. induction n as [|n IH]; intros p r; cbn [run_events]; [reflexivity|]. destruct (next_event T debug p r) as [[p' r'] x]. cbn. f_equal. apply IH. Qed.
Lemma run_ends {R} (T : token_source R) debug n p r : ends_for_good (run_events T debug n p r).
Proof. intros i H j I J. rewrite run_size in J. apply (run_fused R T debug n p r i (or_introl H) j I J). Qed.

Lemma poured_events t src debug : well_formed t -> steady src -> bytes_of src = t -> (all_ascii t \/ short t) ->
  forall n, let xs := run_events peek_source debug n parser0 (snd (events_new (Own (owned_new src)) false)) in
            let ys := run_events peek_source debug n parser0 (snd (events_new (Borrow t) false)) in
    until_failure xs = until_failure ys /\ (Forall (fun y => exists a, y = Ok a) ys -> xs = ys).
Proof.
  intros W S B H n. cbn [events_new snd].
  destruct (text_tape t (as_scanner false) W) as (l & x & R & F).
  change (reader_new (Own (owned_new src)) (as_scanner false)) with (pour src (as_scanner false)).
  change (reader_new (Borrow t) (as_scanner false)) with (open t (as_scanner false)).
  assert (M : mates (pour src (as_scanner false)) (open t (as_scanner false))).
  { intros s l1 x1 l2 x2 E E'. destruct (chunks_unseen t src (as_scanner false) W S B eq_refl s l1 x1 l2 x2 E E') as [K|(_ & K1 & K2 & _)]; [exact K|tauto]. }
  assert (G : feeding (List.length t) (peek_new (pour src (as_scanner false))) (l, x)).
  { destruct R as (O & I & L). split; [exact (mates_tape l x _ _ M O)|]. split; [|exact L]. cbn [peek_new pk_reader pour reader_new r_in total owned_new o_tail o_head o_src]. rewrite B. cbn. lia. }
  destruct (reading_runs _ _ _ debug n parser0 R) as [R1 R2]. destruct (feeding_runs _ _ _ debug n parser0 G) as [G1 G2].
  cbv zeta. assert (U := eq_trans G1 (eq_sym R1)). split; [exact U|].
  apply agree_all; [rewrite !run_size; reflexivity|apply run_ends|apply run_ends|exact U].
Qed.
