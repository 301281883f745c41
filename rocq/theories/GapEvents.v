(** The event parser over texts that differ in white space and comments. *)
From Verif Require Import SpecGapEvents SpecTape EventSim TapeFacts TapeStream SpecUtf8 Utf8Facts StreamFacts DeferEvents OwnedEvents GapFacts.
From Coq Require Import Lia.
Open Scope nat_scope.

(** ** The tape of a reader on its way *)
Lemma reach_in t o s l r : consumes (open t o) s = (l, Ok r) -> r_in r = Borrow t.
Proof.
  change (r_in r = Borrow t) with ((fun r => r_in r = Borrow t) r). generalize (eq_refl : r_in (open t o) = Borrow t).
  generalize (open t o). revert l. induction s as [|[|] s IH]; intros l q I E; cbn [consumes] in E.
  - congruence.
  - pose proof (scan_in q t I) as J. destruct (reader_scan q) as [q' [u|e| |]]; try discriminate. exact (IH _ _ J E).
  - destruct (q_pop entry_cmp (r_q q)) as [e q']. destruct (consumes _ s) as [l1 x] eqn:C. assert (x = Ok r) as -> by congruence. eapply IH; [|exact C]. exact I.
Qed.
Lemma reach_tape t o s0 l0 r : well_formed t -> consumes (open t o) s0 = (l0, Ok r) -> exists l x,
  reading t (peek_new r) (l, x) /\ x <> Fuel.
Proof.
  intros W E. pose proof (proj2 (valid_iff t) W) as V.
  assert (A : forall s l x, consumes r s = (l, x) -> List.length l <= 6 * List.length t + 4 /\ x <> Fuel).
  { intros s l x C. pose proof (consumes_app (open t o) s0 s) as H. rewrite E, C in H. split.
    - apply (stream_length t o V) in H. rewrite app_length in H. lia.
    - apply (stream_fuel t o V) in H. apply H. }
  destruct (tape_of (6 * List.length t + 5) (peek_new r)) as [(l & T & L)|(l & x & O & L)].
  - exfalso. destruct (taken_schedule (6 * List.length t + 5) r) as (s & l' & x & C & D & _).
    apply A in C as [C _]. rewrite T in D. pose proof (delivered_map l []) as M. rewrite !app_nil_r in M. rewrite M in D. subst l'. lia.
  - exists l, x. split.
    + split; [exact O|]. split; [exact (reach_in _ _ _ _ _ E)|cbn; lia].
    + intros ->. unfold on_tape in O. cbn [fst snd tape_end] in O.
      destruct (taken_schedule (List.length l + 1) r) as (s & l' & x & C & D & _ & _ & F).
      rewrite O in F. apply A in C. apply (proj2 C), F, in_or_app. right. left. reflexivity.
Qed.

(** ** Readers whose consumers see corresponding tokens *)
Section Twins.
  Variable E : entry -> entry -> Prop.
  Definition seen (r r' : reader) : Prop :=
    forall s, Forall2 E (fst (consumes r s)) (fst (consumes r' s)) /\ same_end (snd (consumes r s)) (snd (consumes r' s)).
  Definition twins (r r' : reader) : Prop := r_exhausted r' = r_exhausted r /\ seen r r'.
  Definition took (a a' : option entry) : Prop :=
    match a, a' with Some e, Some e' => E e e' | None, None => True | _, _ => False end.

  Lemma seen_pull r r' : seen r r' -> took (fst (q_pop entry_cmp (r_q r))) (fst (q_pop entry_cmp (r_q r'))) /\ seen (without r) (without r').
  Proof.
    intros H. assert (T : took (fst (q_pop entry_cmp (r_q r))) (fst (q_pop entry_cmp (r_q r')))).
    { destruct (H [Pull]) as [F _]. cbn [consumes] in F.
      destruct (q_pop entry_cmp (r_q r)) as [[e|] q], (q_pop entry_cmp (r_q r')) as [[e'|] q']; cbn in *; inversion F; subst; auto. }
    split; [exact T|]. intros s. specialize (H (Pull :: s)). cbn [consumes] in H. unfold without.
    destruct (q_pop entry_cmp (r_q r)) as [e q], (q_pop entry_cmp (r_q r')) as [e' q']. cbn [fst snd] in *.
    destruct (consumes (mkReader (r_sc r) q _ _ _) s) as [l x], (consumes (mkReader (r_sc r') q' _ _ _) s) as [l' x']. cbn [fst snd] in *.
    destruct H as [F G]. split; [|exact G]. destruct e, e'; cbn in T; try contradiction; [inversion F; assumption|exact F].
  Qed.
  Lemma pop_size (q : tokens) : match fst (q_pop entry_cmp q) with
    | Some _ => q_len q = S (q_len (snd (q_pop entry_cmp q)))
    | None => q_len q = 0 end.
  Proof.
    destruct (q_pop entry_cmp q) as [e q'] eqn:P. cbn [fst snd]. unfold q_pop, q_len in *. destruct (q_heap q) as [|x l] eqn:H.
    - injection P as <- <-. reflexivity.
    - destruct (extract entry entry_cmp x l) as [m rs] eqn:X. injection P as <- <-. cbn [q_heap].
      apply PeekFacts.extract_len in X. cbn in *. lia.
  Qed.
  Lemma seen_size n : forall r r', q_len (r_q r) <= n -> seen r r' -> q_len (r_q r') = q_len (r_q r).
  Proof.
    induction n as [|n IH]; intros r r' L H; destruct (seen_pull r r' H) as [T N];
      pose proof (pop_size (r_q r)) as A; pose proof (pop_size (r_q r')) as B.
    - destruct (fst (q_pop entry_cmp (r_q r))), (fst (q_pop entry_cmp (r_q r'))); try destruct T; lia.
    - specialize (IH (without r) (without r')). unfold without in IH; cbn [r_q] in IH.
      destruct (fst (q_pop entry_cmp (r_q r))), (fst (q_pop entry_cmp (r_q r'))); cbn [took] in T; try contradiction; [|lia].
      specialize (IH ltac:(lia) N). lia.
  Qed.
  Lemma twins_pull r r' : twins r r' -> took (fst (q_pop entry_cmp (r_q r))) (fst (q_pop entry_cmp (r_q r'))) /\ twins (without r) (without r').
  Proof. intros [X H]. destruct (seen_pull r r' H) as [T N]. split; [exact T|]. split; [exact X|exact N]. Qed.
  Lemma twins_fill r r' : twins r r' ->
    match reader_scan r, reader_scan r' with
    | (r1, Ok _), (r2, Ok _) => twins r1 r2
    | (_, Err e), (_, Err e') => e' = e
    | (_, Panic), (_, Panic) => True
    | _, _ => False
    end.
  Proof.
    intros [X H]. pose proof (H [Fill]) as [_ K]. cbn [consumes] in K.
    destruct (reader_scan r) as [r1 [[]|e| |]] eqn:S1, (reader_scan r') as [r2 [[]|e2| |]] eqn:S2; try (exact K); try (symmetry; exact K); try (cbn in K; contradiction).
    assert (N : seen r1 r2).
    { intros s. specialize (H (Fill :: s)). cbn [consumes] in H. rewrite S1, S2 in H. exact H. }
    split; [|exact N]. pose proof (seen_size _ _ _ (le_n _) H) as Q. pose proof (seen_size _ _ _ (le_n _) N) as Q1.
    unfold reader_scan in S1, S2. destruct (drive (r_opts r) _ _ _) as [[[i1 c1] q1] x1], (drive (r_opts r') _ _ _) as [[[i2 c2] q2] x2].
    injection S1 as <- ->. injection S2 as <- ->. cbn [r_q r_exhausted] in *. rewrite Q, Q1. reflexivity.
  Qed.
  Lemma twins_pop r r' : twins r r' ->
    match snd (pk_pop (peek_new r)), snd (pk_pop (peek_new r')) with
    | Ok a, Ok a' => took a a' /\ exists r1 r2, fst (pk_pop (peek_new r)) = peek_new r1 /\ fst (pk_pop (peek_new r')) = peek_new r2 /\ twins r1 r2
    | Err e, Err e' => e' = e
    | Panic, Panic => True
    | _, _ => False
    end.
  Proof.
    intros T. pose proof T as [X H]. pose proof (seen_size _ _ _ (le_n _) H) as Q.
    assert (XX : reader_exhausted r' = reader_exhausted r) by (unfold reader_exhausted; rewrite X, Q; reflexivity).
    unfold pk_pop, peek_new, take_next. cbn [pk_peek pk_reader]. rewrite XX, Q.
    destruct (reader_exhausted r); [cbn; split; [exact Logic.I|]; exists r, r'; auto|].
    destruct (Nat.eqb _ 0).
    - pose proof (twins_fill r r' T) as F.
      destruct (reader_scan r) as [r1 [[]|e| |]], (reader_scan r') as [r2 [[]|e2| |]]; try contradiction; try (cbn; auto; fail).
      destruct (twins_pull r1 r2 F) as [Y N]. unfold without in N.
      destruct (q_pop entry_cmp (r_q r1)) as [a q], (q_pop entry_cmp (r_q r2)) as [a' q']. cbn [fst snd pk_peek pk_reader] in *.
      split; [exact Y|]. eexists. eexists. split; [reflexivity|]. split; [reflexivity|exact N].
    - destruct (twins_pull r r' T) as [Y N]. unfold without in N.
      destruct (q_pop entry_cmp (r_q r)) as [a q], (q_pop entry_cmp (r_q r')) as [a' q']. cbn [fst snd pk_peek pk_reader] in *.
      split; [exact Y|]. eexists. eexists. split; [reflexivity|]. split; [reflexivity|exact N].
  Qed.
  Lemma twins_tape l : forall x l' x' r r', twins r r' -> on_tape (peek_new r) (l, x) -> on_tape (peek_new r') (l', x') -> Forall2 E l l' /\ same_end x x'.
  Proof.
    induction l as [|e l IH]; intros x l' x' r r' T O O'; pose proof (twins_pop r r' T) as H.
    - apply on_end in O. rewrite O in H. destruct l' as [|e' l'].
      + apply on_end in O'. rewrite O' in H. split; [constructor|]. destruct x as [[]|e| |], x' as [[]|e'| |]; cbn in *; auto; contradiction.
      + apply on_head in O' as [O' _]. rewrite O' in H. destruct x as [[]|e| |]; cbn in H; [destruct H|..]; contradiction.
    - apply on_head in O as [A O]. rewrite A in H. destruct l' as [|e' l'].
      + apply on_end in O'. rewrite O' in H. destruct x' as [[]|e'| |]; cbn in H; [destruct H|..]; contradiction.
      + apply on_head in O' as [A' O']. rewrite A' in H. destruct H as (K & r1 & r2 & E1 & E2 & N). rewrite E1 in O. rewrite E2 in O'.
        destruct (IH _ _ _ _ _ N O O') as [F G]. split; [constructor; assumption|exact G].
  Qed.
End Twins.

(** ** Events *)
Definition evals (s s' : scalar_like) : Prop := evaluate_scalar s' = evaluate_scalar s.
Lemma lazy_is d s : evaluate_scalar (LazyS d) = s ->
  eval_deferred d = match s with Ok (c, k) => Ok (TScalar c k) | Err e => Err e | Panic => Panic | Fuel => Fuel end.
Proof.
  cbn [evaluate_scalar]. intros <-. destruct (eval_deferred d) as [t|e| |] eqn:E; try reflexivity.
  destruct (eval_scalar d t E) as (c & k & ->). reflexivity.
Qed.
Lemma into_evals d d' : eval_deferred d' = eval_deferred d -> evals (LazyS d) (LazyS d').
Proof. intros H. unfold evals. cbn [evaluate_scalar]. rewrite H. reflexivity. Qed.
Lemma into_like m m' : into_token m' = into_token m ->
  match scalar_of m, scalar_of m' with
  | Some s, Some s' => evals s s'
  | None, None => m' = m
  | _, _ => False
  end.
Proof.
  destruct m as [t|d], m' as [t'|d']; cbn [into_token]; intros H.
  - injection H as ->. destruct t; cbn; try reflexivity.
  - destruct (eval_scalar d' t H) as (c & k & ->). cbn [scalar_of]. unfold evals. cbn [evaluate_scalar]. rewrite H. reflexivity.
  - symmetry in H. destruct (eval_scalar d t' H) as (c & k & ->). cbn [scalar_of]. unfold evals. cbn [evaluate_scalar]. rewrite H. reflexivity.
  - cbn [scalar_of]. apply into_evals, H.
Qed.

Section Moved.
  Variables p n1 n2 : nat.
  Definition back (a b : nat) : Prop := same_place p n1 n2 b a.

  Lemma token_like e e' : same_token p n1 n2 e e' -> like (same_place p n1 n2) evals e e'.
  Proof. intros [H P]. split; [exact P|exact (into_like _ _ H)]. Qed.
  Lemma token_back e e' : same_token p n1 n2 e e' -> like back evals e' e.
  Proof. intros [H P]. split; [exact P|exact (into_like _ _ (eq_sym H))]. Qed.
  Lemma tapes_there l x l' x' : Forall2 (same_token p n1 n2) l l' -> same_end x x' -> linked (same_place p n1 n2) evals true (l, x) (l', x').
  Proof.
    intros F G. exists l', []. cbn [fst snd]. rewrite app_nil_r. split; [reflexivity|].
    split; [induction F; constructor; auto using token_like|]. split.
    - intros ->. destruct x' as [[]|?| |]; try destruct G. auto.
    - intros e ->. right. destruct x' as [[]|?| |]; try destruct G. auto.
  Qed.
  Lemma tapes_back l x l' x' : Forall2 (same_token p n1 n2) l l' -> same_end x x' -> linked back evals true (l', x') (l, x).
  Proof.
    intros F G. exists l, []. cbn [fst snd]. rewrite app_nil_r. split; [reflexivity|].
    split; [induction F; constructor; auto using token_back|]. split.
    - intros ->. destruct x as [[]|?| |]; try destruct G. auto.
    - intros e ->. right. destruct x as [[]|?| |]; try destruct G. auto.
  Qed.
  Lemma both_ways l : forall l', answers_like (same_place p n1 n2) evals true l l' -> answers_like back evals true l' l -> moved_events p n1 n2 l l'.
  Proof.
    induction l as [|x l IH]; intros [|x' l'] F G; [exact Logic.I|destruct x' as [[e|]|e| |]; destruct G|destruct x as [[e|]|e| |]; destruct F|].
    destruct x as [[e|]|e| |], x' as [[e'|]|e'| |]; cbn [answers_like moved_events] in *; auto; try contradiction;
      try discriminate; try (destruct F as [[F _]|F]; congruence); try (destruct G as [[G _]|G]; congruence).
    destruct F as [(A & B & C) F], G as [_ G]. split; [|apply IH; assumption]. repeat split; try assumption.
  Qed.

  Lemma moved_runs t t' r r' tp tp' debug n q : twins (same_token p n1 n2) r r' -> reading t (peek_new r) tp -> reading t' (peek_new r') tp' ->
    moved_events p n1 n2 (run_events peek_source debug n q (peek_new r)) (run_events peek_source debug n q (peek_new r')).
  Proof.
    intros T R R'. destruct tp as [l x], tp' as [l' x']. destruct (twins_tape _ _ _ _ _ _ _ T (proj1 R) (proj1 R')) as [F G].
    pose proof (proj1 (reading_runs _ _ _ debug n q R)) as U. pose proof (proj1 (reading_runs _ _ _ debug n q R')) as U'.
    apply both_ways; (apply alike_until; [|rewrite !run_length; reflexivity]); rewrite U, U'; apply until_alike, runs_alike; try reflexivity.
    - exact (tapes_there _ _ _ _ F G).
    - exact (tapes_back _ _ _ _ F G).
  Qed.
End Moved.

Theorem leading_events t w1 w2 x1 x2 k lazy debug n : well_formed (w1 ++ t) -> well_formed (w2 ++ t) -> well_formed t ->
  filler t w1 x1 k -> filler t w2 x2 k ->
  moved_events 0 (List.length w1) (List.length w2)
    (run_events peek_source debug n parser0 (snd (events_new (Borrow (w1 ++ t)) lazy)))
    (run_events peek_source debug n parser0 (snd (events_new (Borrow (w2 ++ t)) lazy))).
Proof.
  intros V1 V2 VT F1 F2. destruct (text_tape (w1 ++ t) (as_scanner lazy) V1) as (l & x & R & _).
  destruct (text_tape (w2 ++ t) (as_scanner lazy) V2) as (l' & x' & R' & _).
  refine (moved_runs _ _ _ _ _ _ _ _ _ debug n parser0 _ R R'). split; [reflexivity|].
  exact (gap_leading t w1 w2 x1 x2 k (as_scanner lazy) V1 V2 VT F1 F2).
Qed.
Theorem between_events a t w1 w2 x k o s0 l r l' r' debug n q : well_formed (a ++ w1 ++ t) -> well_formed (a ++ w2 ++ t) -> well_formed t ->
  filler t w1 x k -> filler t w2 x k ->
  consumes (open (a ++ w1 ++ t) o) s0 = (l, Ok r) -> consumes (open (a ++ w2 ++ t) o) s0 = (l', Ok r') ->
  r_sc r' = r_sc r -> r_q r' = r_q r -> sc_offset (r_sc r) = List.length a -> sc_state (r_sc r) <> SStart -> r_exhausted r' = r_exhausted r ->
  moved_events (List.length a) (List.length w1) (List.length w2)
    (run_events peek_source debug n q (peek_new r)) (run_events peek_source debug n q (peek_new r')).
Proof.
  intros V1 V2 VT F1 F2 E1 E2 C Q OF NS X.
  destruct (reach_tape _ _ _ _ _ V1 E1) as (l1 & x1 & R & _). destruct (reach_tape _ _ _ _ _ V2 E2) as (l2 & x2 & R' & _).
  refine (moved_runs _ _ _ _ _ _ _ _ _ debug n q _ R R'). split; [exact X|].
  exact (gap_between a t w1 w2 x k o s0 l l' r r' V1 V2 VT F1 F2 E1 E2 C Q OF NS).
Qed.
