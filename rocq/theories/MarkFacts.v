(** The marks of the events of texts. *)
From Verif Require Import SpecMarks SpecTape SpecUtf8 SpecStream SpecPlaced StreamFacts TapeStream Utf8Facts EventCount EventMarks LayoutStream.
From Coq Require Import Lia.
Open Scope nat_scope.

Lemma loop_reads L debug f : forall b l p x p' t' a, low b l -> incl l L -> event_loop tape tape_source debug f p (l, x) = (p', t', Ok a) ->
  exists b', b <= b' /\ low b' (fst t') /\ incl (fst t') L /\ marked L b b' (fst t') a.
Proof.
  induction f as [|f IH]; intros b l p x p' t' a LO I E; cbn [event_loop] in E; destruct (ps_done p).
  - injection E as <- <- <-. exists b. cbn. auto.
  - discriminate.
  - injection E as <- <- <-. exists b. cbn. auto.
  - pose proof (reads_transition L debug b l p x) as T.
    destruct (state_transition tape tape_source debug p (l, x)) as [[p1 [l1 x1]] [[e|]|e| |]]; try discriminate.
    + injection E as <- <- <-. exact (T p1 _ _ LO I eq_refl).
    + destruct (T p1 _ _ LO I eq_refl) as (b1 & B1 & LO1 & I1 & _). cbn [fst] in *.
      destruct (IH b1 l1 p1 x1 p' t' a LO1 I1 E) as (b2 & B2 & LO2 & I2 & M). exists b2. split; [lia|]. split; [exact LO2|]. split; [exact I2|].
      destruct a as [v|]; [|exact Logic.I]. cbn in M |- *. destruct M as (M1 & M2 & M3). split; [lia|]. auto.
Qed.
Lemma run_reads L debug B n : Forall (fun e => e_read e <= B) L -> forall b l p x, b <= B -> low b l -> incl l L ->
  let es := first_events (run_events tape_source debug n p (l, x)) in
  rising b (marks es) B /\ Forall (fun v => exists e, In e L /\ e_read e = ev_end v /\ fits (ev_data v) (e_wrap e)) es.
Proof.
  intros F. induction n as [|n IH]; intros b l p x BB LO I; cbn [run_events first_events]; [cbn; auto|].
  unfold next_event. pose proof (loop_reads L debug 3 b l p x) as R.
  destruct (event_loop tape tape_source debug 3 p (l, x)) as [[p' [l' x']] [[e|]|e| |]]; cbn [first_events]; try (cbn; auto; fail).
  destruct (R p' (l', x') (Some e) LO I eq_refl) as (b' & B1 & LO1 & I1 & M). cbn [marked fst] in *. destruct M as (M1 & M2 & en & E1 & E2 & E3).
  assert (LE : ev_end e <= B). { rewrite <- E2. rewrite Forall_forall in F. apply F, E1. }
  assert (LO2 : low (ev_end e) l'). { destruct l'; [exact Logic.I|]. destruct LO1 as [X Y]. split; [lia|exact Y]. }
  destruct (IH (ev_end e) l' p' x' LE LO2 I1) as [R1 R2]. split.
  - unfold marks in *. cbn [flat_map app rising]. split; [lia|]. split; [lia|]. exact R1.
  - constructor; [exists en; auto|exact R2].
Qed.

Lemma in_order_low b l : Forall (fun e => b <= e_read e) l -> in_order l -> low b l.
Proof.
  revert b; induction l as [|e r IH]; intros b F O; [exact Logic.I|]. inversion F; subst. split; [assumption|]. apply IH.
  - rewrite Forall_forall. intros y Y. apply in_split in Y as (p & q & ->). exact (O [] e p y q eq_refl).
  - intros p x q y s ->. exact (O (e :: p) x q y s eq_refl).
Qed.
Lemma first_until {A} (l : list (pres (option A))) : first_events (until_failure l) = first_events l.
Proof. induction l as [|[[e|]|e| |] l IH]; cbn; [reflexivity|f_equal; exact IH|reflexivity..]. Qed.

Lemma text_marks t lazy debug : well_formed t -> exists s l x, consumes (open t (as_scanner lazy)) s = (l, x) /\
  forall n, let es := first_events (run_events peek_source debug n parser0 (snd (events_new (Borrow t) lazy))) in
    rising 0 (marks es) (List.length t) /\
    Forall (fun v => exists e, In e l /\ e_read e = ev_end v /\ fits (ev_data v) (e_wrap e)) es.
Proof.
  intros W. destruct (text_tape t (as_scanner lazy) W) as (l & y & R & _).
  destruct (taken_schedule (List.length l + 1) (open t (as_scanner lazy))) as (s & l' & x & C & D & _).
  assert (l' = l) as ->.
  { destruct R as (O & _). unfold on_tape in O. cbn [fst snd] in O. rewrite O, delivered_map in D. rewrite <- D.
    destruct y as [u|z| |]; cbn; apply app_nil_r. }
  exists s, l, x. split; [exact C|]. intros n.
  destruct (stream_order t (as_scanner lazy) (proj2 (valid_iff t) W) s l x C) as [IO F].
  pose proof (proj1 (reading_runs _ _ _ debug n parser0 R)) as E.
  change (snd (events_new (Borrow t) lazy)) with (peek_new (open t (as_scanner lazy))).
  cbv zeta. rewrite <- (first_until (run_events peek_source _ _ _ _)). rewrite E, first_until.
  apply run_reads; [exact F|lia|apply in_order_low; [|exact IO]|apply incl_refl].
  rewrite Forall_forall. intros; lia.
Qed.
Lemma marks_rise t lazy debug n : well_formed t ->
  rising 0 (marks (first_events (run_events peek_source debug n parser0 (snd (events_new (Borrow t) lazy))))) (List.length t).
Proof. intros W. destruct (text_marks t lazy debug W) as (s & l & x & _ & H). apply H. Qed.
Lemma marks_fit t lazy debug : well_formed t -> exists s l x, consumes (open t (as_scanner lazy)) s = (l, x) /\
  forall n v, In v (first_events (run_events peek_source debug n parser0 (snd (events_new (Borrow t) lazy)))) ->
    exists e, In e l /\ e_read e = ev_end v /\ fits (ev_data v) (e_wrap e).
Proof.
  intros W. destruct (text_marks t lazy debug W) as (s & l & x & C & H). exists s, l, x. split; [exact C|]. intros n v I.
  destruct (H n) as [_ F]. rewrite Forall_forall in F. exact (F v I).
Qed.

(** ** Where content stands *)
Lemma found_content P t s es s' e : found P t s es s' -> In e es -> token_of_content (e_marker e) = true ->
  exists u n c, n <= e_read e /\ in_column t n c /\ P u n c e.
Proof.
  intros F I T.
  assert (NE : forall u l map n es u' l', enters t u l map n es u' l' -> In e es -> False).
  { intros u l map n es0 u' l' EN I0. destruct EN; [destruct I0|]. destruct I0 as [<-|[]]. destruct map; discriminate. }
  destruct F; repeat match goal with H : In _ (_ ++ _) |- _ => apply in_app_or in H as [H|H] | H : In _ (_ :: _) |- _ => destruct H as [<-|H] | H : In _ [] |- _ => destruct H end;
    try discriminate; try (exfalso; eapply NE; eassumption); try (destruct map; discriminate).
  eauto 8.
Qed.
Lemma laid_content P t s h s' e : laid_out P t s h s' -> In e h -> token_of_content (e_marker e) = true ->
  exists u n c, n <= e_read e /\ in_column t n c /\ P u n c e.
Proof.
  induction 1 as [|s es s1 fs s2 F _ IH]; intros I T; [destruct I|]. apply in_app_or in I as [I|I]; [exact (found_content P t s es s1 e F I T)|auto].
Qed.
Lemma scalars_stand t debug n v d c k : well_formed t -> no_verbatim_tag t ->
  In v (first_events (run_events peek_source debug n parser0 (snd (events_new (Borrow t) false)))) ->
  ev_data v = EvScalar d (Eager c k) ->
  c = Borrowed [] /\ k = Plain \/
  exists s p col, p <= ev_end v /\ in_column t p col /\ written t s p col (mkEntry (Tok (TScalar c k)) (ev_end v)).
Proof.
  intros W NV I EV. destruct (marks_fit t false debug W) as (s & l & x & C & H). destruct (H n v I) as (e & IE & RE & FE).
  rewrite EV in FE. cbn in FE. destruct FE as [FE|FE]; [right|left; exact FE].
  destruct (layout_streams t (as_scanner false) W NV eq_refl s l x C) as (h & rest & s' & [_ SO] & LA).
  assert (IH : In e h).
  { assert (X : In e (filter (fun y => Nat.eqb (e_read y) (e_read e)) (l ++ rest))) by (apply filter_In; split; [apply in_or_app; auto|apply Nat.eqb_refl]).
    rewrite SO in X. apply filter_In in X. apply X. }
  destruct (laid_content _ t _ h s' e LA IH) as (u & p & col & LE & IC & WR); [unfold e_marker; rewrite FE; reflexivity|].
  assert (e = mkEntry (Tok (TScalar c k)) (ev_end v)) as <- by (destruct e; cbn in *; congruence).
  exists u, p, col. split; [rewrite <- RE; exact LE|]. split; [exact IC|exact WR].
Qed.
