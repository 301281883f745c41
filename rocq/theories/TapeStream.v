(** The tokens of a text on a tape, and the events the reader gives for them. *)
From Verif Require Export TapeFacts.
From Verif Require Import StreamFacts SpecUtf8 Utf8Facts.
From Coq Require Import Lia ZifyBool ZifyN ZifyNat.
Open Scope nat_scope.

Lemma taken_S p n : taken p (S n) =
  snd (pk_pop p) :: match snd (pk_pop p) with Ok _ => taken (fst (pk_pop p)) n | _ => [] end.
Proof. unfold taken. cbn [repeat served]. destruct (pk_pop p) as [p' [x|e| |]]; reflexivity. Qed.

Lemma scan_in r t : r_in r = Borrow t -> r_in (fst (reader_scan r)) = Borrow t.
Proof. intros E. unfold reader_scan, drive. rewrite E. destruct (scan_tokens _ _ _ _) as [[sc q] [a|e| |]]; reflexivity. Qed.
Lemma next_in p t : r_in (pk_reader p) = Borrow t -> r_in (pk_reader (fst (take_next p))) = Borrow t.
Proof.
  intros E. unfold take_next. destruct (pk_peek p); [exact E|].
  pose proof (scan_in _ _ E) as S.
  destruct (Nat.eqb _ _).
  - destruct (reader_scan (pk_reader p)) as [r [a|e| |]]; try exact S.
    destruct (q_pop entry_cmp (r_q r)); exact S.
  - destruct (q_pop entry_cmp _); exact E.
Qed.
Lemma pop_in p t : r_in (pk_reader p) = Borrow t -> r_in (pk_reader (fst (pk_pop p))) = Borrow t.
Proof.
  intros E. unfold pk_pop. destruct (pk_peek p); [exact E|]. destruct (reader_exhausted _); [exact E|].
  pose proof (next_in _ _ E) as S. destruct (take_next p) as [p' [a|e| |]]; exact S.
Qed.
Lemma look_in p t : r_in (pk_reader p) = Borrow t -> r_in (pk_reader (fst (pk_look p))) = Borrow t.
Proof.
  intros E. unfold pk_look. destruct (pk_peek p); [exact E|]. destruct (reader_exhausted _); [exact E|].
  pose proof (next_in _ _ E) as S. destruct (take_next p) as [p' [a|e| |]]; exact S.
Qed.

Lemma pop_last p p' : pk_pop p = (p', Ok None) -> pk_pop p' = (p', Ok None).
Proof.
  intros E. destruct (pk_look p) as [p1 [x|e| |]] eqn:L.
  - destruct (look_then_pop _ _ _ L) as (A & B & C & D). rewrite E in A. injection A as <-.
    assert (X : p1 = p').
    { revert L E. unfold pk_look, pk_pop. destruct (pk_peek p); [discriminate|]. destruct (reader_exhausted _); [congruence|].
      destruct (take_next p) as [p2 [a|e| |]]; try discriminate. intros L E. pose proof (f_equal snd L) as L2. pose proof (f_equal fst L) as L1. pose proof (f_equal fst E) as E1. cbn in L2, L1, E1. injection L2 as L2. destruct p2; cbn in *. congruence. }
    rewrite X in B. congruence.
  - apply look_fails in L; congruence.
  - apply look_fails in L; congruence.
  - apply look_fails in L; congruence.
Qed.

Lemma on_head p e l x : on_tape p (e :: l, x) <-> snd (pk_pop p) = Ok (Some e) /\ on_tape (fst (pk_pop p)) (l, x).
Proof.
  unfold on_tape. cbn [fst snd List.length Nat.add map app]. rewrite taken_S. split.
  - intros H. destruct (snd (pk_pop p)) as [y|y| |]; injection H as H H'; [|discriminate..]. subst y. auto.
  - intros [-> ->]. reflexivity.
Qed.
Lemma on_end p x : on_tape p ([], x) <-> snd (pk_pop p) = tape_end x.
Proof.
  unfold on_tape. cbn [fst snd List.length Nat.add map app]. rewrite taken_S. change (taken (fst (pk_pop p)) 0) with (@nil (rres (option entry))).
  split; [intros H; injection H as H _; exact H|]. intros ->. destruct x; reflexivity.
Qed.

Definition reading (t : str) (p : peek_reader) (tp : tape) : Prop :=
  on_tape p tp /\ r_in (pk_reader p) = Borrow t /\ List.length (fst tp) <= 6 * List.length t + 4.

Lemma reading_pop t p tp : reading t p tp ->
  snd (pk_pop p) = tape_next tp /\ (reading t (fst (pk_pop p)) (tl (fst tp), snd tp) \/ broken tp /\ fst tp = []).
Proof.
  intros (O & I & L). destruct tp as [[|e l] x]; cbn [fst snd tl].
  - apply on_end in O. split; [exact O|]. destruct x as [[]|e| |].
    2-4: right; split; [intros a; discriminate|reflexivity].
    left. split; [|split; [apply pop_in, I|exact L]]. apply on_end. cbn in *.
    destruct (pk_pop p) as [p' y] eqn:E. cbn in O. subst y. cbn. rewrite (pop_last _ _ E). reflexivity.
  - apply on_head in O as [H O]. split; [exact H|]. left. split; [exact O|]. split; [apply pop_in, I|cbn in *; lia].
Qed.
Lemma reading_look t p tp : reading t p tp ->
  snd (pk_look p) = tape_next tp /\ (reading t (fst (pk_look p)) tp \/ broken tp /\ fst tp = []).
Proof.
  intros R. destruct (reading_pop t p tp R) as [P _]. destruct R as (O & I & L).
  pose proof (look_in _ _ I) as I'.
  destruct (pk_look p) as [p' y] eqn:E. cbn [fst snd] in *.
  assert (K : (exists x, y = Ok x) \/ forall x, y <> Ok x) by (destruct y; [left; eauto|right; discriminate..]).
  destruct K as [(x & ->)|N].
  - destruct (look_then_pop _ _ _ E) as (A & B & _). split; [congruence|]. left. split; [|split; assumption].
    destruct tp as [[|e l] z]; [apply on_end in O; apply on_end|apply on_head in O; apply on_head]; rewrite B; exact O.
  - pose proof (proj1 (look_fails _ _ _ N) E) as F. rewrite F in P. cbn in P. split; [exact P|]. right.
    subst y. unfold tape_next in N. destruct tp as [[|e l] z]; cbn in *; [|destruct (N _ eq_refl)].
    split; [|reflexivity]. intros a A. cbn in A. subst z. destruct (N _ eq_refl).
Qed.

Lemma reading_runs t p tp debug n q : reading t p tp ->
  until_failure (run_events peek_source debug n q p) = until_failure (run_events tape_source debug n q tp) /\
  (snd tp = Ok tt -> run_events peek_source debug n q p = run_events tape_source debug n q tp).
Proof.
  apply (run_sim peek_reader peek_source debug (reading t)).
  - intros r tp'. apply reading_look.
  - intros r tp'. apply reading_pop.
  - intros r tp' (_ & I & L). cbn [ts_budget peek_source]. unfold peek_budget. rewrite I. cbn [input_size]. lia.
Qed.

Lemma tape_of n : forall p, (exists l, taken p n = map (fun e => Ok (Some e)) l /\ List.length l = n) \/
  exists l x, on_tape p (l, x) /\ List.length l < n.
Proof.
  induction n as [|n IH]; intros p; [left; exists []; auto|].
  rewrite taken_S. destruct (snd (pk_pop p)) as [[e|]|e| |] eqn:E.
  - destruct (IH (fst (pk_pop p))) as [(l & T & L)|(l & x & O & L)].
    + left. exists (e :: l). rewrite T. cbn. auto.
    + right. exists (e :: l), x. split; [apply on_head; auto|cbn; lia].
  - right. exists [], (Ok tt). split; [apply on_end; exact E|cbn; lia].
  - right. exists [], (Err e). split; [apply on_end; exact E|cbn; lia].
  - right. exists [], Panic. split; [apply on_end; exact E|cbn; lia].
  - right. exists [], Fuel. split; [apply on_end; exact E|cbn; lia].
Qed.

Lemma delivered_map (l : list entry) r : delivered (map (fun e => Ok (Some e)) l ++ r) = l ++ delivered r.
Proof. induction l as [|e l IH]; [reflexivity|]. cbn. f_equal. exact IH. Qed.

(** The tape of a text, with what any other consumer of the tokens sees of it. *)
Lemma text_tape t o : well_formed t -> exists l x,
  reading t (peek_new (open t o)) (l, x) /\ x <> Fuel.
Proof.
  intros W. pose proof (proj2 (valid_iff t) W) as V.
  destruct (tape_of (6 * List.length t + 5) (peek_new (open t o))) as [(l & T & L)|(l & x & O & L)].
  - exfalso. destruct (taken_schedule (6 * List.length t + 5) (open t o)) as (s & l' & x & C & D & _).
    apply (stream_length t o V) in C. rewrite T in D.
    pose proof (delivered_map l []) as M. rewrite !app_nil_r in M. rewrite M in D. subst l'. lia.
  - exists l, x. split.
    + split; [exact O|]. split; [reflexivity|cbn; lia].
    + intros ->. unfold on_tape in O. cbn [fst snd tape_end] in O.
      destruct (taken_schedule (List.length l + 1) (open t o)) as (s & l' & x & C & D & _ & _ & F).
      rewrite O in F. apply (stream_fuel t o V) in C. apply (proj1 C), F, in_or_app. right. left. reflexivity.
Qed.

Lemma text_events t lazy debug : well_formed t -> exists l x,
  on_tape (snd (events_new (Borrow t) lazy)) (l, x) /\ x <> Fuel /\
  (forall n, until_failure (run_events peek_source debug n parser0 (snd (events_new (Borrow t) lazy))) =
             until_failure (run_events tape_source debug n parser0 (l, x))) /\
  (x = Ok tt -> forall n, run_events peek_source debug n parser0 (snd (events_new (Borrow t) lazy)) =
                          run_events list_source debug n parser0 l).
Proof.
  intros W. destruct (text_tape t (as_scanner lazy) W) as (l & x & R & F). exists l, x.
  split; [exact (proj1 R)|]. split; [exact F|]. cbn [events_new snd]. split.
  - intros n. exact (proj1 (reading_runs _ _ _ debug n parser0 R)).
  - intros -> n. rewrite list_tape. exact (proj2 (reading_runs _ _ _ debug n parser0 R) eq_refl).
Qed.
