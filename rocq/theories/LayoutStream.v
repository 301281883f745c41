(** Tokens with content at their places, and the layout of whole streams. *)
From Verif Require Export SpecPlaced Layout Runs.
From Verif Require Import PlainStream BlockTokens BlockStream PlainSem ContentFacts NameFacts QuotedFacts StreamFacts Utf8Facts.
From Coq Require Import Lia ZifyBool ZifyNat ZifyN.
Open Scope nat_scope.

(** ** Only what has been begun is open *)
Definition sane (s : layout) : Prop := begun_before s = false -> blocks s = [].
Lemma enters_sane t u l mp n es u' l' : enters t u l mp n es u' l' -> (u = false -> l = []) -> u' = false -> l' = [].
Proof. intros [c _ _ _|c _ _ _]; [auto|discriminate]. Qed.
Lemma found_sane P t s es s' : found P t s es s' -> sane s -> sane s'.
Proof.
  unfold sane. intros H. destruct H; cbn; try solve [auto];
    try solve [intros S; eapply enters_sane; [eassumption|exact S]].
  intros S U. specialize (S U). discriminate.
Qed.
Lemma laid_mono (P Q : layout -> nat -> nat -> entry -> Prop) t :
  (forall s n c e, sane s -> P s n c e -> Q s n c e) ->
  forall s h s', laid_out P t s h s' -> sane s -> laid_out Q t s h s'.
Proof.
  intros I s h s' H. induction H as [s|s es s1 fs s2 F L IH]; intros S; [constructor|].
  pose proof (found_sane _ _ _ _ _ F S) as S1. eapply lo_next; [|exact (IH S1)].
  destruct F; try solve [econstructor; eauto].
Qed.

(** ** Places of tokens with content *)
Lemma indent_plain (cx : context) : (c_started cx = false -> c_indent cx = 0) -> indent_add (cur_indent cx) 1 = S (c_indent cx).
Proof. unfold cur_indent. destruct (c_started cx); cbn; [lia|intros E; rewrite E; reflexivity]. Qed.
Lemma indent_block (cx : context) : (c_started cx = false -> c_indent cx = 0) -> indent_usize (cur_indent cx) = c_indent cx.
Proof. unfold cur_indent. destruct (c_started cx); cbn; [lia|intros E; rewrite E; reflexivity]. Qed.
Lemma first_char b (c : N) : at_is b 0 c = true -> exists r, b = c :: r.
Proof. unfold at_is. destruct b as [|x b]; [discriminate|]. cbn. intros E. apply N.eqb_eq in E as ->. eauto. Qed.
Lemma but_final_refl v : but_final_break v v.
Proof. exists v. auto. Qed.

Lemma known_written o t s n c e : lazy_mode o = false -> valid t -> sane s -> known (no_extend o) t s n c e -> written t s n c e.
Proof.
  intros NL V SN (st & cx & k & st' & CT & EN & EC & ER & R1 & R2 & EF & ES & EI).
  assert (VS : valid (skipn n t)) by (apply (reads_valid _ _ _ _ R1 V)).
  assert (AF : skipn k (skipn n t) = skipn (e_read e) t).
  { rewrite skipn_skipn, ER. replace (k + n) with (n + k) by lia. apply (exact_suffix _ _ _ R2). }
  assert (IN0 : c_started cx = false -> c_indent cx = 0).
  { intros X. rewrite ES in X. rewrite EI, (SN X). reflexivity. }
  assert (FL : negb (is_block cx) = negb (Nat.eqb (flows s) 0)).
  { unfold is_block, is_flow. rewrite EF, negb_involutive. reflexivity. }
  unfold written. rewrite <- AF, <- EI. remember (e_wrap e) as m eqn:EM. clear EM.
  destruct CT as [A|start A1 A2 A3|dk tok buf k d A1 A2 A3 D A4|tok k d A D|alias tok buf k d A D A2
      |sg tok k d A D|tok k st' A D|fd tok k st' A1 A2 D].
  - exact (first_char _ _ A).
  - assert (DM : document_marker (skipn n t)).
    { apply document_marker_iff. unfold is_doc_indicator. rewrite A3. cbn [Nat.eqb andb].
      destruct start; rewrite A1; cbn [orb]; rewrite ?orb_true_r; reflexivity. }
    apply starts_with_iff in A1 as (r & E). destruct start; (split; [congruence|]; split; [exact DM|]); unfold stands_at; rewrite E; eexists; reflexivity.
  - destruct (first_char _ _ A1) as (r & E).
    destruct (ScanFacts.directive_kind _ _ _ _ _ _ _ D) as [(? & ? & ->)|(? & ? & ->)]; (split; [congruence|exists r; exact E]).
  - destruct (tag_kind _ _ _ _ _ _ D) as (? & ? & ->). exact (first_char _ _ A).
  - destruct (anchor_kind _ _ _ _ _ _ _ D) as (? & ->). destruct alias; exact (first_char _ _ A).
  - unfold scan_flow_scalar in D. change (lazy_mode (no_extend o)) with (lazy_mode o) in D. rewrite NL in D.
    apply bind_inv in D as ([[tk k'] d'] & D & X). injection X as <- <- <-.
    destruct (eager_sound _ _ _ _ _ _ _ VS A D) as (body & c' & r & EB & -> & _ & Q & R & _).
    rewrite R. destruct sg; exists body; (split; [exact EB|]).
    + apply Q. discriminate.
    + intros NW. apply Q. intros _. apply no_wide_skipn, NW.
  - unfold scan_plain_scalar in D. change (lazy_mode (no_extend o)) with (lazy_mode o) in D. rewrite NL in D.
    apply bind_inv in D as ([[tk k'] d'] & D & X). injection X as <- <- <-.
    destruct (plain_sound _ _ _ _ _ _ _ _ VS A D) as (c' & -> & P & _).
    rewrite <- FL, <- EC, <- (indent_plain _ IN0). exact P.
  - unfold scan_block_scalar in D. change (lazy_mode (no_extend o)) with (lazy_mode o) in D. rewrite NL in D.
    apply bind_inv in D as ([[tk k'] d'] & D & X).
    assert (tok = Tok tk) as -> by congruence. assert (k' = k) as -> by congruence.
    destruct (block_sound _ _ _ _ _ _ _ _ VS D) as (c' & i & b & v & -> & EB & _ & BL & OW & BO).
    rewrite (indent_block _ IN0) in BL.
    assert (F0 : flows s = 0).
    { unfold is_block, is_flow in A2. rewrite EF in A2. lia. }
    assert (i = block_indicator fd) as ->. { rewrite EB in A1. unfold at_is in A1. cbn in A1. apply N.eqb_eq, A1. }
    assert (BF : but_final_break v (cow_str c')).
    { destruct c' as [y|y]; cbn [cow_str]; [apply (BO y eq_refl)|rewrite (OW y eq_refl); apply but_final_refl]. }
    destruct fd; (split; [exact F0|]); exists b, v; auto.
Qed.

(** ** The order of the tokens *)
Lemma ordered_in_order l : ordered l -> in_order l.
Proof.
  intros O a y b' z c ->. apply ordered_app in O as (_ & O & _). inversion O as [|? ? F _]; subst.
  rewrite Forall_forall in F. apply F. apply in_or_app. right. left. reflexivity.
Qed.
Lemma ins_stable x l m : ordered l ->
  filter (fun e => Nat.eqb (e_read e) m) (ins x l) = filter (fun e => Nat.eqb (e_read e) m) (l ++ [x]).
Proof.
  induction 1 as [|y l F O IH]; [reflexivity|]. cbn [ins app]. destruct (Nat.leb_spec (e_read y) (e_read x)) as [L|L].
  - cbn [filter]. rewrite IH. reflexivity.
  - rewrite app_comm_cons, filter_app. cbn [filter]. destruct (Nat.eqb_spec (e_read x) m) as [E|E]; [|rewrite app_nil_r; reflexivity].
    assert (N : filter (fun e => Nat.eqb (e_read e) m) (y :: l) = []).
    { assert (G : Forall (fun e => m < e_read e) (y :: l)).
      { constructor; [lia|]. eapply Forall_impl; [|exact F]. cbn. lia. }
      clear - G. induction G as [|z q Z _ IH]; [reflexivity|]. cbn [filter]. replace (Nat.eqb (e_read z) m) with false by lia. exact IH. }
    cbn [filter] in N. rewrite N. reflexivity.
Qed.
Lemma isort_sorted h : sorted_by_position h (isort h).
Proof.
  split; [apply ordered_in_order, isort_ordered|]. intros m.
  induction h as [|x h IH] using rev_ind; [reflexivity|].
  rewrite isort_snoc, ins_stable, !filter_app, IH by apply isort_ordered. reflexivity.
Qed.

(** ** Streams *)
Lemma stream_layout t o s l x : valid t -> exactly t -> lazy_mode o = false -> consumes (open t o) s = (l, x) ->
  exists h rest s', sorted_by_position h (l ++ rest) /\ laid_out (written t) t nothing_open h s'.
Proof.
  intros V EX NL C. pose proof (consumes_history o t s l x V C) as H.
  destruct (calls (no_extend o) t (fills s)) as [[h sc] r]. destruct H as ((rest & H) & (sc' & (b & I & _) & _) & _).
  exists h, rest. destruct (i_layout _ _ _ _ _ I EX NL) as (_ & bl & ks & m & L & _).
  eexists. split; [rewrite <- H; apply isort_sorted|].
  eapply laid_mono; [|exact L|intros _; reflexivity]. intros. eapply known_written; eauto.
Qed.

Lemma layout_streams (t : str) (o : flags) : well_formed t -> no_verbatim_tag t -> lazy_mode o = false ->
  forall s l x, consumes (open t o) s = (l, x) ->
    exists h rest s', sorted_by_position h (l ++ rest) /\ laid_out (written t) t nothing_open h s'.
Proof.
  intros W NV NL s l x C. apply (stream_layout t o s l x); [apply valid_iff, W|apply no_verbatim_exactly, NV|exact NL|exact C].
Qed.
