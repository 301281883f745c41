(** The event parser over deferred scalars. *)
From Verif Require Import SpecDeferEvents SpecTape EventSim TapeFacts TapeStream SpecUtf8 SpecContent Utf8Facts QuotedFacts DeferStream.
From Coq Require Import Lia.
Open Scope nat_scope.

(** ** What can be deferred *)
Lemma eval_scalar d t : eval_deferred d = Ok t -> exists c k, t = TScalar c k.
Proof.
  destruct d; cbn [eval_deferred]; intros H; apply bind_inv in H as ([[tok n] s] & H & E);
    assert (tok = t) as -> by congruence; clear E.
  - unfold scan_flow_scalar_eager in H. do 6 (apply bind_inv in H as (? & _ & H)). injection H as <-. eauto.
  - unfold scan_plain_scalar_eager in H. apply bind_inv in H as (? & _ & H).
    match type of H with (if ?c then _ else _) = _ => destruct c end; [discriminate|].
    do 3 (apply bind_inv in H as (? & _ & H)). injection H as <-. eauto.
  - unfold scan_block_scalar_eager in H. apply bind_inv in H as ([[[? ?] ?] ?] & _ & H).
    apply bind_inv in H as ([[[[? ?] ?] ?] b] & _ & H). destruct b; do 2 (apply bind_inv in H as (? & _ & H)); injection H as <-; eauto.
Qed.
Lemma trel_cases m m' : trel m m' ->
  (exists t, m = Tok t /\ m' = Tok t /\ plainly t) \/
  (exists c k, m = Tok (TScalar c k) /\ maybe_marker m' = MScalar /\
     exists s c', evaluate_scalar s = Ok (c', k) /\ (m' = Tok (TScalar c' k) /\ s = Eager c' k \/ exists d, m' = Lazy d /\ s = LazyS d) /\
       (c' = c \/ (k = Literal \/ k = Folded) /\ up_to_break c c')).
Proof.
  intros (t & -> & V).
  assert (P : plainly t \/ exists c k, t = TScalar c k) by (destruct t; cbn; eauto). destruct P as [P|(c & k & ->)].
  - left. exists t. split; [reflexivity|]. split; [|exact P]. destruct V as [V|(c & c' & k & -> & _)]; [|destruct P].
    destruct m' as [t'|d]; cbn [into_token] in V; [congruence|]. apply eval_scalar in V as (c & k & ->). destruct P.
  - right. exists c, k. split; [reflexivity|].
    assert (W : exists c', into_token m' = Ok (TScalar c' k) /\ (c' = c \/ (k = Literal \/ k = Folded) /\ up_to_break c c')).
    { destruct V as [V|(c0 & c' & k' & E & K & V & U)]; [eauto|]. injection E as -> ->. eauto 8. }
    destruct W as (c' & V' & U). destruct m' as [t'|d]; cbn [into_token maybe_marker] in *.
    + assert (t' = TScalar c' k) as -> by congruence. split; [reflexivity|]. exists (Eager c' k), c'. cbn. auto.
    + split; [reflexivity|]. exists (LazyS d), c'. cbn [evaluate_scalar]. rewrite V'. cbn. eauto 8.
Qed.

(** ** Entries *)
Definition sdata (s s' : scalar_like) : Prop := exists c c' k, evaluate_scalar s = Ok (c, k) /\ evaluate_scalar s' = Ok (c', k) /\
  (c' = c \/ (k = Literal \/ k = Folded) /\ up_to_break c c').
Definition same_mark (m m' : nat) : Prop := m' = m.
Notation dlinked := (linked same_mark sdata false).
Notation dlike := (answers_like same_mark sdata false).
Lemma erel_like e e' : erel e e' -> like same_mark sdata e e'.
Proof.
  intros (R & T). split; [exact R|]. destruct (trel_cases _ _ T) as [(t & -> & -> & PL)|(c & k & -> & _ & s & c' & V & W & U)].
  - destruct t; try reflexivity. destruct PL.
  - cbn [scalar_of]. destruct W as [(-> & ->)|(d & -> & ->)]; cbn [scalar_of]; exists c, c', k; auto.
Qed.
Lemma like_follows l : forall l', dlike l l' -> follows l l'.
Proof.
  induction l as [|x l IH]; intros l' F; [destruct l'; exact F|].
  destruct l' as [|x' l']; [destruct x as [[e|]|e| |]; destruct F|].
  destruct x as [[e|]|e| |], x' as [[e'|]|e'| |]; cbn [answers_like follows] in *; auto; try contradiction;
    try (intros N; destruct F as [[_ (s & ->)]|F]; [destruct (N s eq_refl)|exact F]).
  destruct F as [(A & B & C) F]. split; [|apply IH, F]. repeat split; try assumption.
Qed.

(** ** The tapes of a text *)
Lemma scan_error r t r' e : r_in r = Borrow t -> reader_scan r = (r', Err e) -> exists s, e = RScan s.
Proof.
  intros I. unfold reader_scan. rewrite I. unfold drive. destruct (scan_tokens _ _ _ _) as [[sc q] [x|s| |]]; cbn [map_err]; intros H; try discriminate.
  exists s. congruence.
Qed.
Lemma pop_error p t p' e : r_in (pk_reader p) = Borrow t -> pk_pop p = (p', Err e) -> exists s, e = RScan s.
Proof.
  intros I. unfold pk_pop, take_next. destruct (pk_peek p) eqn:PK; [discriminate|]. destruct (reader_exhausted _); [discriminate|].
  destruct (Nat.eqb _ 0).
  - destruct (reader_scan (pk_reader p)) as [r x] eqn:E. destruct x as [x|s| |]; [destruct (q_pop _ _); discriminate| |discriminate..].
    intros H. assert (s = e) as -> by congruence. eapply scan_error; eassumption.
  - destruct (q_pop _ _); discriminate.
Qed.
Definition prel (t : str) (p p' : peek_reader) : Prop := pk_peek p = None /\ pk_peek p' = None /\ rrel t (pk_reader p) (pk_reader p').
Lemma pop_related t p p' : good t -> prel t p p' ->
  match snd (pk_pop p) with
  | Ok x => exists y, snd (pk_pop p') = Ok y /\ both erel x y /\ prel t (fst (pk_pop p)) (fst (pk_pop p'))
  | _ => True
  end.
Proof.
  intros G (PK & PK' & R). unfold pk_pop, take_next. rewrite PK, PK'.
  assert (X : reader_exhausted (pk_reader p') = reader_exhausted (pk_reader p)).
  { unfold reader_exhausted. destruct R as (_ & _ & _ & _ & _ & -> & Q). rewrite (qrel_len _ _ Q). reflexivity. }
  rewrite X. destruct (reader_exhausted (pk_reader p)).
  { cbn. exists None. unfold prel. auto. }
  assert (K : forall r r', rrel t r r' ->
    exists y, (let (e, q) := q_pop entry_cmp (r_q r') in Ok e : rres (option entry)) = Ok y /\ both erel (fst (q_pop entry_cmp (r_q r))) y /\
      rrel t (mkReader (r_sc r) (snd (q_pop entry_cmp (r_q r))) (r_opts r) (r_exhausted r) (r_in r))
             (mkReader (r_sc r') (snd (q_pop entry_cmp (r_q r'))) (r_opts r') (r_exhausted r') (r_in r'))).
  { intros r r' (I & I' & L & L' & C & E & Q). pose proof (pop_rel _ _ Q) as P.
    destruct (q_pop entry_cmp (r_q r)) as [[e|] q1].
    - destruct P as (e' & q1' & -> & ER & Q1). exists (Some e'). repeat split; try assumption; try apply ER; try apply Q1.
    - destruct P as (q1' & -> & Q1). exists None. repeat split; try assumption; try apply Q1. }
  assert (QL : q_len (r_q (pk_reader p')) = q_len (r_q (pk_reader p))) by apply qrel_len, R. rewrite QL.
  destruct (Nat.eqb _ 0).
  - destruct (reader_scan (pk_reader p)) as [r x] eqn:E. destruct x as [[]|s| |]; [|exact Logic.I..].
    destruct (reader_rel t _ _ _ G R E) as (r' & -> & R'). destruct (K r r' R') as (y & Y & O & RR).
    destruct (q_pop entry_cmp (r_q r)) as [e q], (q_pop entry_cmp (r_q r')) as [e' q']. cbn [fst snd pk_peek pk_reader] in *.
    exists y. split; [exact Y|]. split; [exact O|]. split; [reflexivity|]. split; [reflexivity|exact RR].
  - destruct (K _ _ R) as (y & Y & O & RR).
    destruct (q_pop entry_cmp (r_q (pk_reader p))) as [e q], (q_pop entry_cmp (r_q (pk_reader p'))) as [e' q']. cbn [fst snd pk_peek pk_reader] in *.
    exists y. split; [exact Y|]. split; [exact O|]. split; [reflexivity|]. split; [reflexivity|exact RR].
Qed.
Lemma tapes_linked t l : good t -> forall x l' x' p p', prel t p p' -> on_tape p (l, x) -> on_tape p' (l', x') -> dlinked (l, x) (l', x').
Proof.
  intros G. induction l as [|e l IH]; intros x l' x' p p' R O O'; pose proof (pop_related t p p' G R) as H.
  - apply on_end in O. rewrite O in H. exists [], l'. split; [reflexivity|]. split; [constructor|]. split; cbn [snd].
    + intros ->. cbn [tape_end] in H. destruct H as ([y|] & Y & Q & _); [destruct Q|].
      destruct l' as [|e' l']; [|apply on_head in O'; destruct O'; congruence]. split; [reflexivity|].
      apply on_end in O'. rewrite O' in Y. destruct x' as [[]|?| |]; cbn in Y; congruence.
    + intros er ->. cbn in O. destruct (pk_pop p) as [p1 z] eqn:E. cbn in O. subst z. left. split; [reflexivity|]. eapply pop_error; [|exact E]. apply R.
  - apply on_head in O as [E O]. rewrite E in H. destruct H as ([y|] & Y & Q & R'); [|destruct Q].
    destruct l' as [|e' l']; [apply on_end in O'; rewrite O' in Y; destruct x' as [[]|?| |]; discriminate|].
    apply on_head in O' as [E' O']. assert (y = e') as -> by congruence.
    destruct (IH x l' x' _ _ R' O O') as (a & b & A & F & B). cbn [fst snd] in *. exists (e' :: a), b. cbn. split; [f_equal; exact A|]. split; [constructor; [apply erel_like, Q|exact F]|exact B].
Qed.
Lemma run_length {R} (T : token_source R) debug n : forall p r, List.length (run_events T debug n p r) = n.
Proof. induction n as [|n IH]; intros p r; cbn [run_events]; [reflexivity|]. destruct (next_event T debug p r) as [[p' r'] x]. cbn. f_equal. apply IH. Qed.

Theorem deferred_events t debug n : all_ascii t -> no_double t ->
  follows (run_events peek_source debug n parser0 (snd (events_new (Borrow t) false)))
          (run_events peek_source debug n parser0 (snd (events_new (Borrow t) true))).
Proof.
  intros A D. pose proof (StreamFacts.ascii_well_formed t A) as W.
  destruct (text_events t false debug W) as (l & x & O & _ & E & _).
  destruct (text_events t true debug W) as (l' & x' & O' & _ & E' & _).
  apply like_follows, alike_until; [|rewrite !run_length; reflexivity]. rewrite E, E'. apply until_alike, runs_alike.
  { do 3 eexists. split; [reflexivity|]. split; [reflexivity|left; reflexivity]. }
  refine (tapes_linked t l (conj A D) x l' x' _ _ _ O O').
  split; [reflexivity|]. split; [reflexivity|]. repeat split. constructor.
Qed.
