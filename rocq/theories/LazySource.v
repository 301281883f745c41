(** The event parser over byte sources with deferred scalars. *)
From Verif Require Import SpecLazySource EventSim TapeFacts TapeStream SpecUtf8 SpecContent Utf8Facts StreamFacts EventFuel OwnedEvents OwnedWitness SpecGap GapEvents.
From Coq Require Import Lia.
Open Scope nat_scope.

Lemma twins_transfer E x' l' : forall r r', twins E r r' -> on_tape (peek_new r') (l', x') ->
  exists l x, on_tape (peek_new r) (l, x) /\ Forall2 E l l' /\ (x' <> Fuel -> same_end x x').
Proof.
  induction l' as [|e' l' IH]; intros r r' T O; pose proof (twins_pop E r r' T) as H.
  - apply on_end in O. rewrite O in H. destruct (snd (pk_pop (peek_new r))) as [[e|]|e| |] eqn:P.
    + exfalso. destruct x' as [[]|e'| |]; cbn in H; try contradiction. destruct H as [[] _].
    + exists [], (Ok tt). split; [apply on_end; exact P|]. split; [constructor|]. destruct x' as [[]|e'| |]; cbn in H; try contradiction. intros _; exact Logic.I.
    + exists [], (Err e). split; [apply on_end; exact P|]. split; [constructor|]. destruct x' as [[]|e'| |]; cbn in H; try contradiction. cbn. auto.
    + exists [], Panic. split; [apply on_end; exact P|]. split; [constructor|]. destruct x' as [[]|e'| |]; cbn in H; try contradiction. cbn. auto.
    + destruct x' as [[]|e'| |]; cbn in H; contradiction.
  - apply on_head in O as [A O]. rewrite A in H. destruct (snd (pk_pop (peek_new r))) as [[e|]|e| |] eqn:P; try contradiction; try (destruct H as [[] _]; fail).
    destruct H as (K & r1 & r2 & E1 & E2 & N). rewrite E2 in O. destruct (IH _ _ N O) as (l & x & O1 & F & G).
    exists (e :: l), x. split; [apply on_head; rewrite E1; auto|]. split; [constructor; assumption|exact G].
Qed.

Definition settles (s s' : scalar_like) : Prop := s' = settled_scalar s.
Definition settles_back (s s' : scalar_like) : Prop := s = settled_scalar s'.
Definition entry_settles (e e' : entry) : Prop := e' = SpecOwned.settled e.
Lemma settle_like e : like eq settles e (SpecOwned.settled e).
Proof.
  unfold SpecOwned.settled, like. destruct e as [[t|d] n]; cbn [e_wrap].
  - split; [reflexivity|]. cbn [e_wrap]. destruct t; cbn [scalar_of]; reflexivity.
  - destruct d; cbn [e_wrap e_read scalar_of]; split; reflexivity.
Qed.
Lemma settle_back e : like eq settles_back (SpecOwned.settled e) e.
Proof.
  unfold SpecOwned.settled, like. destruct e as [[t|d] n]; cbn [e_wrap].
  - split; [reflexivity|]. cbn [e_wrap]. destruct t; cbn [scalar_of]; reflexivity.
  - destruct d; cbn [e_wrap e_read scalar_of]; split; reflexivity.
Qed.
Lemma answers_settled l : forall l', ~ In Fuel l -> ~ In Fuel l' -> answers_like eq settles true l l' -> answers_like eq settles_back true l' l ->
  until_failure l' = map settled_answer (until_failure l).
Proof.
  induction l as [|x l IH]; intros [|x' l'] N N' F G; [reflexivity|destruct x' as [[e|]|e| |]; destruct G|destruct x as [[e|]|e| |]; destruct F|].
  destruct x as [[e|]|e| |], x' as [[e'|]|e'| |]; cbn [answers_like until_failure map settled_answer] in *; auto; try contradiction;
    try discriminate; try (destruct F as [[F _]|F]; congruence); try (destruct G as [[G _]|G]; congruence); try (destruct N; left; reflexivity); try (destruct N'; left; reflexivity).
  destruct F as [(A & B & C) F], G as [_ G]. assert (EV : e' = settled_event e).
  { destruct e as [s n d], e' as [s' n' d']. cbn [ev_start ev_end ev_data] in *. subst. unfold settled_event. cbn [ev_start ev_end ev_data].
    f_equal. destruct d, d'; cbn [data_like] in C; try congruence. destruct C as [-> C]. unfold settles in C. subst. reflexivity. }
  subst e'. rewrite (IH l'); [reflexivity|intros K; apply N; right; exact K|intros K; apply N'; right; exact K|exact F|exact G].
Qed.
Lemma until_settled l : until_failure (map settled_answer l) = map settled_answer (until_failure l).
Proof. induction l as [|[[e|]|e| |] l IH]; cbn; [reflexivity|rewrite IH; reflexivity|reflexivity..]. Qed.
Lemma settled_ends xs : ends_for_good xs -> ends_for_good (map settled_answer xs).
Proof.
  intros E i H j I J. rewrite map_length in J. rewrite nth_error_map in H |- *.
  destruct (nth_error xs i) as [[[e|]|e| |]|] eqn:N; cbn in H; try discriminate. rewrite (E i N j I J). reflexivity.
Qed.

Theorem lazily_poured t src debug : well_formed t -> steady src -> bytes_of src = t -> ~ In 13%N t -> (all_ascii t \/ short t) ->
  forall n, let xs := run_events peek_source debug n parser0 (snd (events_new (Own (owned_new src)) true)) in
            let ys := run_events peek_source debug n parser0 (snd (events_new (Borrow t) true)) in
    until_failure ys = map settled_answer (until_failure xs) /\
    (Forall (fun y => exists a, y = Ok a) ys -> ys = map settled_answer xs).
Proof.
  intros W S B NR H n. cbn [events_new snd].
  destruct (text_tape t (as_scanner true) W) as (l' & x' & R & F').
  change (reader_new (Own (owned_new src)) (as_scanner true)) with (pour src (as_scanner true)).
  change (reader_new (Borrow t) (as_scanner true)) with (open t (as_scanner true)).
  assert (T : twins entry_settles (pour src (as_scanner true)) (open t (as_scanner true))).
  { split; [reflexivity|]. intros s. destruct (consumes (pour src _) s) as [l1 x1] eqn:E1, (consumes (open t _) s) as [l2 x2] eqn:E2.
    destruct (deferred_unseen t src (as_scanner true) W S B eq_refl NR s _ _ _ _ E1 E2) as [[-> K]|(_ & K1 & K2 & _)]; [|tauto].
    cbn [fst snd]. split; [|destruct x1, x2; cbn in *; tauto].
    clear. induction l1; constructor; auto. reflexivity. }
  destruct (twins_transfer _ _ _ _ _ T (proj1 R)) as (l & x & O & F & G). specialize (G F').
  assert (FE : feeding (List.length t) (peek_new (pour src (as_scanner true))) (l, x)).
  { destruct R as (_ & I & L). split; [exact O|]. split.
    - cbn [peek_new pk_reader pour reader_new r_in total owned_new o_tail o_head o_src]. rewrite B. cbn. lia.
    - cbn [fst] in *. assert (List.length l = List.length l') by (clear - F; induction F; cbn; congruence). lia. }
  pose proof (proj1 (reading_runs _ _ _ debug n parser0 R)) as U'. pose proof (proj1 (feeding_runs _ _ _ debug n parser0 FE)) as U.
  assert (NF : ~ In Fuel (run_events tape_source debug n parser0 (l, x))).
  { apply run_sure; [apply shape0|]. cbn. destruct x, x'; cbn in G; try discriminate; contradiction. }
  assert (NF' : ~ In Fuel (run_events tape_source debug n parser0 (l', x'))) by (apply run_sure; [apply shape0|exact F']).
  assert (V : until_failure (run_events tape_source debug n parser0 (l', x')) = map settled_answer (until_failure (run_events tape_source debug n parser0 (l, x)))).
  { apply answers_settled; [exact NF|exact NF'|..]; apply runs_alike; try reflexivity; eexists; exists []; cbn [fst snd]; rewrite app_nil_r; (split; [reflexivity|]).
    - split; [clear - F; induction F as [|e e' l l' K F IH]; constructor; [unfold entry_settles in K; subst; apply settle_like|exact IH]|]. split.
      + intros ->. destruct x' as [[]|?| |]; try destruct G. auto.
      + intros e ->. right. destruct x' as [[]|?| |]; try destruct G. auto.
    - split; [clear - F; induction F as [|e e' l l' K F IH]; constructor; [unfold entry_settles in K; subst; apply settle_back|exact IH]|]. split.
      + intros ->. destruct x as [[]|?| |]; try destruct G. auto.
      + intros e ->. right. destruct x as [[]|?| |]; try destruct G. auto. }
  cbv zeta. rewrite <- U, <- U' in V. split; [exact V|]. intros A. symmetry.
  apply agree_all; [rewrite map_length, !run_size; reflexivity|apply settled_ends, run_ends|apply run_ends|rewrite until_settled; symmetry; exact V|exact A].
Qed.
Lemma settled_inv xs : forall es, map settled_answer xs = map (fun x => Ok (Some x)) es ++ [Ok None] ->
  exists es', xs = map (fun x => Ok (Some x)) es' ++ [Ok None] /\ map settled_event es' = es.
Proof.
  induction xs as [|x xs IH]; intros [|e es] H; cbn in H; try discriminate.
  - injection H as H K. apply map_eq_nil in K. subst. destruct x as [[y|]|y| |]; cbn in H; try discriminate. exists []. auto.
  - injection H as H K. destruct (IH es K) as (es' & -> & E). destruct x as [[y|]|y| |]; cbn in H; try discriminate. injection H as H.
    exists (y :: es'). cbn. split; [reflexivity|]. rewrite E, <- H. reflexivity.
Qed.
