(** Block scalars: evaluating the text of a deferred block scalar. *)
From Verif Require Import QuotedFacts Loops BlockFacts.
From Verif Require Export DeferBlock SpecDefer.
From Coq Require Import Lia ZifyBool ZifyN ZifyNat.
Open Scope nat_scope.

(** A run read backwards. *)
Lemma runs_back {E S S' R R'} (body : S -> res E (step S R)) (body' : S' -> res E (step S' R'))
  (Inv : S -> Prop) (C : S -> S' -> Prop) (D : R -> R' -> Prop) :
  (forall s s1 s1', Inv s -> body s = Ok (Next s1) -> C s1 s1' -> exists s', C s s' /\ body' s' = Ok (Next s1')) ->
  (forall s s1, Inv s -> body s = Ok (Next s1) -> Inv s1) ->
  (forall s x x', Inv s -> body s = Ok (Done x) -> D x x' -> exists s', C s s' /\ body' s' = Ok (Done x')) ->
  forall s x, runs body s x -> forall x', Inv s -> D x x' -> exists s', C s s' /\ runs body' s' x'.
Proof.
  intros HN HI HD s x H. induction H as [s x B|s s1 x B H IH]; intros x' I X.
  - destruct (HD _ _ _ I B X) as (s' & C' & B'). exists s'. split; [exact C'|]. apply runs_done, B'.
  - destruct (IH x' (HI _ _ I B) X) as (s1' & C1 & R1). destruct (HN _ _ _ I B C1) as (s' & C' & B').
    exists s'. split; [exact C'|]. eapply runs_next; eauto.
Qed.

Lemma ascii_skipn n s : ascii s -> ascii (skipn n s).
Proof. intros A. rewrite <- (firstn_skipn n s) in A. eapply ascii_r, A. Qed.
Lemma breakZ_cut x r : ascii x -> x <> [] -> is_breakZ (x ++ r) = is_breakZ x.
Proof. intros A N. unfold is_breakZ. rewrite break_cut by assumption. destruct x; [congruence|reflexivity]. Qed.

(** Rounds shorten the text. *)
Lemma adv_shorter b st n b1 st1 : b <> [] -> adv b st (S n) = Ok (b1, st1) -> List.length b1 < List.length b.
Proof.
  intros N H. apply adv_ok in H as (-> & _). rewrite skipn_length. destruct b; [congruence|]. cbn [List.length]. lia.
Qed.
Lemma line_shorter b st b1 st1 : is_break b = true -> adv_line b st = Ok (b1, st1) -> List.length b1 < List.length b.
Proof.
  intros N H. apply adv_line_ok in H as (-> & _). rewrite skipn_length. unfold is_break in N. pose proof (break_amt_le b). destruct (break_amt b); [discriminate|]. lia.
Qed.
Lemma blank_some b : is_blank b = true -> b <> [].
Proof. intros H ->. discriminate. Qed.
Lemma not_breakZ_some b : is_breakZ b = false -> b <> [].
Proof. intros H ->. discriminate. Qed.
Lemma skip_blank_dec oe s s1 : skip_blank_body oe s = Ok (Next s1) -> List.length (fst s1) < List.length (fst s).
Proof.
  destruct s as [b st]. unfold skip_blank_body. destruct (is_blank b) eqn:BL; [|discriminate]. intros H.
  apply bind_inv in H as (? & _ & H). apply bind_inv in H as ([b2 st2] & AD & H). assert (s1 = (b2, st2)) as -> by congruence.
  cbn [fst]. eapply adv_shorter; [apply blank_some, BL|exact AD].
Qed.
Lemma skip_line_dec oe s s1 : skip_line_body oe s = Ok (Next s1) -> List.length (fst s1) < List.length (fst s).
Proof.
  destruct s as [b st]. unfold skip_line_body. destruct (is_breakZ b) eqn:BL; [discriminate|]. intros H.
  apply bind_inv in H as (? & _ & H). apply bind_inv in H as ([b2 st2] & AD & H). assert (s1 = (b2, st2)) as -> by congruence.
  cbn [fst]. eapply adv_shorter; [apply not_breakZ_some, BL|exact AD].
Qed.

Lemma detect_space_dec oe l s s1 : detect_space_body oe l s = Ok (Next s1) -> List.length (fst (fst s1)) < List.length (fst (fst s)).
Proof.
  destruct s as [[b st] bo]. unfold detect_space_body. destruct (is_blank b) eqn:BL; [|discriminate]. intros H.
  apply bind_inv in H as (? & _ & H). destruct (at_is b 0 9); [discriminate|]. apply bind_inv in H as ([b2 st2] & AD & H).
  match type of H with Ok (Next ?x) = _ => assert (s1 = x) as -> by congruence end.
  cbn [fst]. eapply adv_shorter; [apply blank_some, BL|exact AD].
Qed.
Lemma detect_space_ascii o l s s1 : ascii (fst (fst s)) -> detect_space_body o l s = Ok (Next s1) -> ascii (fst (fst s1)).
Proof.
  destruct s as [[b st] bo]. unfold detect_space_body. intros A H. cbn [fst] in A. destruct (is_blank b); [|discriminate].
  apply bind_inv in H as (? & _ & H). destruct (at_is b 0 9); [discriminate|]. apply bind_inv in H as ([b2 st2] & AD & H).
  match type of H with Ok (Next ?x) = _ => assert (s1 = x) as -> by congruence end.
  cbn [fst]. apply adv_ok in AD as (-> & _). apply ascii_skipn, A.
Qed.
Lemma detect_space_done o l s x : detect_space_body o l s = Ok (Done x) -> x = s /\ is_blank (fst (fst s)) = false.
Proof.
  destruct s as [[b st] bo]. unfold detect_space_body. destruct (is_blank b) eqn:BL; intros H.
  - exfalso. apply bind_inv in H as (? & _ & H). destruct (at_is b 0 9); [discriminate|]. apply bind_inv in H as ([? ?] & _ & H). discriminate.
  - split; [congruence|exact BL].
Qed.
Lemma detect_spaces_facts o l s x : runs (detect_space_body o l) s x -> ascii (fst (fst s)) ->
  ascii (fst (fst x)) /\ List.length (fst (fst x)) <= List.length (fst (fst s)).
Proof.
  induction 1 as [s x B|s s1 x B H IH]; intros A.
  - apply detect_space_done in B as [-> _]. split; [exact A|apply le_n].
  - pose proof (detect_space_dec _ _ _ _ B) as L. destruct (IH (detect_space_ascii _ _ _ _ A B)) as [A1 L1]. split; [exact A1|lia].
Qed.
Lemma scan_indent_dec oe i s s1 : scan_indent_body oe i s = Ok (Next s1) -> List.length (fst (fst s1)) < List.length (fst (fst s)).
Proof.
  destruct s as [[b st] l]. unfold scan_indent_body. destruct (Nat.ltb (scol st) i); [|discriminate]. cbn [andb].
  destruct (is_ws b) eqn:W; [|discriminate]. intros H. apply bind_inv in H as (y & H1 & H). apply bind_inv in H as (? & _ & H). assert (y = s1) as -> by congruence.
  destruct (at_is b 0 32) eqn:S1.
  { apply bind_inv in H1 as ([b2 st2] & AD & H1). match type of H1 with Ok ?x = _ => assert (s1 = x) as -> by congruence end. cbn [fst].
    eapply adv_shorter; [|exact AD]. intros ->. discriminate. }
  destruct (at_is b 0 9) eqn:S2; [discriminate|]. destruct (is_break b) eqn:S3.
  { apply bind_inv in H1 as ([b2 st2] & AD & H1). match type of H1 with Ok ?x = _ => assert (s1 = x) as -> by congruence end. cbn [fst].
    eapply line_shorter; eauto. }
  exfalso. unfold is_ws, is_blank in W. rewrite S1, S2, S3 in W. discriminate.
Qed.

(** ** The parts of a round *)
Definition unborrow (base : str) (b : bstate) : sres fstate :=
  let s := b_f b in
  if f_bor s && Nat.ltb 0 (b_lines b) then
    let* t := slice base (b_start b) (b_end b) in Ok (mkF (f_buf s) (f_st s) (f_scr s ++ t) false)
  else Ok s.
Definition pushed (fold : bool) (lines : nat) (s : fstate) : fstate :=
  if fold then match lines with O => s | S O => f_push s [32%N] | S n => f_push s (repeat 10%N n) end
  else f_push s (repeat 10%N lines).
Definition start_of (st0 : stats) (b : bstate) (s : fstate) : nat :=
  if f_bor s then if Nat.eqb (b_start b) 0 then sread (f_st s) - sread st0 else b_start b else 0.
Definition end_of (st0 : stats) (s : fstate) : nat :=
  if f_bor s then sread (f_st s) - sread st0 else List.length (f_scr s).
Lemma block_body_eq o base st0 i fold b : extendable o = false -> block_body o base st0 i fold b =
  (if Nat.eqb (scol (f_st (b_f b))) i && negb (is_empty (f_buf (b_f b))) then
    let* s1 := unborrow base b in
    let s2 := pushed fold (b_lines b) s1 in
    let* s3 := loop (fuel_of (f_buf s2)) (block_line_body o) s2 in
    let* '(s4, l4) := if is_break (f_buf s3) then let* s := f_adv_line s3 in Ok (s, 1) else Ok (s3, 0) in
    let* '(b5, st5, l5) := scan_indent o (f_buf s4) (f_st s4) l4 i in
    Ok (Next (mkB (mkF b5 st5 (f_scr s4) (f_bor s4)) (start_of st0 b s2) (end_of st0 s3) l5))
  else Ok (Done b)).
Proof.
  intros OX. unfold block_body. destruct (_ && _); [|reflexivity].
  change (if f_bor (b_f b) && Nat.ltb 0 (b_lines b) then _ else _) with (unborrow base b).
  destruct (unborrow base b) as [s1| | |]; cbn [bind]; [|reflexivity..].
  match goal with |- context [cache o (f_buf ?x) 1] => change x with (pushed fold (b_lines b) s1) end.
  rewrite cache_static by exact OX. cbn [bind].
  destruct (loop _ _ _) as [s3| | |]; cbn [bind]; [|reflexivity..]. rewrite cache_static by exact OX. reflexivity.
Qed.
Lemma pushed_same fold l s : f_buf (pushed fold l s) = f_buf s /\ f_st (pushed fold l s) = f_st s /\ f_bor (pushed fold l s) = f_bor s.
Proof. unfold pushed. destruct fold; [destruct l as [|[|]]|]; auto. Qed.
Lemma unborrow_same base b s : unborrow base b = Ok s ->
  f_buf s = f_buf (b_f b) /\ f_st s = f_st (b_f b) /\ (f_bor s = true -> f_bor (b_f b) = true /\ b_lines b = 0).
Proof.
  unfold unborrow. destruct (f_bor (b_f b)) eqn:FB; cbn [andb].
  - destruct (b_lines b) as [|l]; cbn [Nat.ltb Nat.leb]; intros H.
    + assert (s = b_f b) as -> by congruence. auto.
    + apply bind_inv in H as (t & _ & H). match type of H with Ok ?x = _ => assert (s = x) as -> by congruence end. cbn. repeat split; auto; discriminate.
  - intros H. assert (s = b_f b) as -> by congruence. repeat split; congruence.
Qed.

(** What is known about the state between rounds: the place in the text, and, as long as
    the contents can be borrowed, where they begin and end. *)
Definition round_inv (base : str) (st0 : stats) (b : bstate) : Prop :=
  ascii base /\ reads base st0 (f_buf (b_f b)) (f_st (b_f b)) /\
  (f_bor (b_f b) = true ->
    b_start b <= consumed base (f_buf (b_f b)) /\ b_end b <= consumed base (f_buf (b_f b)) /\
    (b_lines b <> 0 -> b_end b < consumed base (f_buf (b_f b)) /\ b_start b <= b_end b /\
      exists x, nth_error base (b_end b) = Some x /\ (x = 10%N \/ x = 13%N))).
Lemma round_keeps o base st0 i fold b b1 : extendable o = false -> round_inv base st0 b ->
  block_body o base st0 i fold b = Ok (Next b1) -> round_inv base st0 b1.
Proof.
  intros OX (A & R & K) H. pose proof (block_body_leaf o base st0 i fold b) as LF. rewrite H in LF. cbn [leaf] in LF. destruct LF as [R1 _].
  split; [exact A|]. split; [eapply reads_trans; eauto|]. intros BO.
  rewrite block_body_eq in H by exact OX. destruct (_ && _); [|discriminate]. cbv zeta in H.
  apply bind_inv in H as (s1 & H1 & H). destruct (unborrow_same _ _ _ H1) as (E1 & E2 & E3).
  destruct (pushed_same fold (b_lines b) s1) as (F1 & F2 & F3). set (s2 := pushed fold (b_lines b) s1) in *. clearbody s2.
  apply bind_inv in H as (s3 & H3 & H). pose proof (block_line_leaf o s2) as LF. rewrite H3 in LF. cbn [leaf] in LF. destruct LF as (R3 & BZ & B3).
  apply bind_inv in H as ([s4 l4] & H4 & H). apply bind_inv in H as ([[b5 st5] l5] & H5 & H).
  match type of H with Ok (Next ?x) = _ => assert (b1 = x) as -> by congruence end. clear H. cbn [b_f f_buf f_st f_bor b_start b_end b_lines] in *.
  pose proof (scan_indent_leaf o (f_buf s4) (f_st s4) l4 i) as L5. rewrite H5 in L5. cbn [leaf] in L5. apply reads_len in L5 as (L5 & _).
  assert (R03 : reads base st0 (f_buf s3) (f_st s3)) by (rewrite F1, F2, E1, E2 in R3; eapply reads_trans; eauto).
  assert (X4 : f_bor s4 = f_bor s3 /\ List.length (f_buf s4) <= List.length (f_buf s3) /\
    (is_break (f_buf s3) = true -> List.length (f_buf s4) < List.length (f_buf s3)) /\ (is_break (f_buf s3) = false -> l4 = 0 /\ f_buf s4 = [])).
  { destruct (is_break (f_buf s3)) eqn:BR.
    - apply bind_inv in H4 as (y & AD & H4). assert (y = s4) as -> by congruence. unfold f_adv_line in AD. apply bind_inv in AD as ([y z] & AD & H6).
      match type of H6 with Ok ?x = _ => assert (s4 = x) as -> by congruence end. cbn [f_bor f_buf]. apply line_shorter in AD; [|exact BR].
      split; [reflexivity|]. split; [lia|]. split; [auto|discriminate].
    - assert (s4 = s3) as -> by congruence. assert (l4 = 0) as -> by congruence. split; [reflexivity|]. split; [apply le_n|]. split; [discriminate|].
      intros _. split; [reflexivity|]. unfold is_breakZ in BZ. rewrite BR in BZ. destruct (f_buf s3); [reflexivity|discriminate]. }
  destruct X4 as (X1 & X2 & X3 & X4). assert (BO2 : f_bor s2 = true) by congruence. assert (BO1 : f_bor s1 = true) by congruence.
  destruct (E3 BO1) as [BOB LB]. destruct (K BOB) as (K1 & K2 & _).
  unfold start_of, end_of. rewrite BO2. rewrite <- X1, BO.
  apply reads_len in R as (RL1 & RL2 & _). apply reads_len in R03 as (RM1 & RM2 & RM3).
  apply reads_len in R3 as (RN1 & RN2 & _). rewrite F1, E1 in RN1, RN2. rewrite F2, E2 in RN2. rewrite F2, E2.
  unfold consumed in *.
  assert (ST : (if Nat.eqb (b_start b) 0 then sread (f_st (b_f b)) - sread st0 else b_start b) <= sread (f_st s3) - sread st0).
  { destruct (Nat.eqb (b_start b) 0); clear - K1 RL1 RL2 RM1 RM2 RN1 RN2; unfold byte in *; lia. }
  assert (EN : sread (f_st s3) - sread st0 = List.length base - List.length (f_buf s3)) by (clear - RM1 RM2; unfold byte in *; lia).
  split; [rewrite EN in ST; clear - ST X2 L5; unfold byte in *; lia|]. split; [rewrite EN; clear - X2 L5; unfold byte in *; lia|].
  intros NL. destruct (is_break (f_buf s3)) eqn:BR.
  - specialize (X3 eq_refl). split; [rewrite EN; clear - X3 L5 RM1; unfold byte in *; lia|]. split; [exact ST|]. rewrite EN.
    destruct (f_buf s3) as [|x t] eqn:FB; [discriminate|]. exists x. split.
    + rewrite <- (firstn_skipn (List.length base - List.length (x :: t)) base) at 1. rewrite <- RM3.
      rewrite nth_error_app2; rewrite firstn_length; [|clear; unfold byte in *; lia].
      replace (_ - _) with 0 by (clear - RM1; unfold byte in *; lia). reflexivity.
    + assert (AX : ascii (x :: t)) by (rewrite RM3; apply ascii_skipn, A). inversion AX; subst. rewrite break_head in BR by assumption. clear - BR. lia.
  - exfalso. destruct (X4 eq_refl) as (-> & E4). rewrite E4 in H5. unfold scan_indent in H5. destruct (Nat.leb i (scol (f_st s4))); [congruence|].
    rewrite cache_static in H5 by exact OX. cbn [bind] in H5. unfold fuel_of in H5. cbn [List.length loop] in H5. unfold scan_indent_body in H5.
    rewrite andb_false_r in H5. congruence.
Qed.

Section Cut.
  Variables (o oe : flags) (r : str).
  Hypothesis OX : extendable o = false.
  Hypothesis EX : extendable oe = false.
  Hypothesis NR : r <> [].

  Lemma adv_back b st n b1 st1 : ascii b -> adv b st n = Ok (b1 ++ r, st1) ->
    exists b', b = b' ++ r /\ adv b' st n = Ok (b1, st1) /\ List.length b' = n + List.length b1 /\ ascii b'.
  Proof.
    intros A H. apply adv_ok in H as (E & -> & _).
    assert (L : n < List.length b).
    { apply (f_equal (@List.length byte)) in E. rewrite app_length, skipn_length in E. destruct r; [congruence|]. cbn [List.length] in E. unfold byte in *. lia. }
    exists (firstn n b ++ b1). assert (EB : b = (firstn n b ++ b1) ++ r) by (rewrite <- app_assoc, E, firstn_skipn; reflexivity).
    assert (A' : ascii (firstn n b ++ b1)) by (rewrite EB in A; eapply ascii_l, A).
    assert (LF : List.length (firstn n b) = n) by (rewrite firstn_length; unfold byte in *; lia).
    split; [exact EB|]. split; [|split; [rewrite app_length, LF; reflexivity|exact A']].
    rewrite adv_ascii; [|exact A'|rewrite app_length, LF; apply Nat.le_add_r].
    rewrite skipn_app, LF, Nat.sub_diag. rewrite skipn_all2 by (rewrite LF; apply le_n). reflexivity.
  Qed.
  Lemma line_back b st b1 st1 : ascii b -> is_break b = true -> adv_line b st = Ok (b1 ++ r, st1) ->
    exists b', b = b' ++ r /\ adv_line b' st = Ok (b1, st1) /\ b' <> [] /\ ascii b'.
  Proof.
    intros A BR H. apply adv_line_ok in H as (E & -> & _).
    set (n := break_amt b) in *. assert (P : 0 < n) by (unfold is_break in BR; fold n in BR; destruct n; [discriminate|lia]).
    assert (L : n < List.length b).
    { apply (f_equal (@List.length byte)) in E. rewrite app_length, skipn_length in E. destruct r; [congruence|]. cbn [List.length] in E. unfold byte in *. lia. }
    exists (firstn n b ++ b1). assert (EB : b = (firstn n b ++ b1) ++ r) by (rewrite <- app_assoc, E, firstn_skipn; reflexivity).
    assert (A' : ascii (firstn n b ++ b1)) by (rewrite EB in A; eapply ascii_l, A).
    assert (LF : List.length (firstn n b) = n) by (rewrite firstn_length; unfold byte in *; lia).
    assert (NE : firstn n b ++ b1 <> []).
    { intros X. apply (f_equal (@List.length byte)) in X. rewrite app_length, LF in X. cbn in X. lia. }
    split; [exact EB|]. split; [|split; [exact NE|exact A']].
    assert (K : break_amt (firstn n b ++ b1) = n).
    { rewrite (amt_cut _ r A' NE); rewrite <- EB; fold n; [reflexivity|]. rewrite app_length, LF. apply Nat.le_add_r. }
    rewrite adv_line_ascii by exact A'. rewrite K.
    rewrite skipn_app, LF, Nat.sub_diag. rewrite skipn_all2 by (rewrite LF; apply le_n). reflexivity.
  Qed.
  Lemma nonempty_back (b' : str) n m : List.length b' = S n + m -> b' <> [].
  Proof. intros L ->. discriminate. Qed.

  (** ** The rest of the header line *)
  Definition wide2 (s : str * stats) : str * stats := (fst s ++ r, snd s).
  Lemma blank_empty_or x : ascii x -> is_blank (x ++ r) = false -> is_blank x = false.
  Proof. intros A H. destruct x as [|a x]; [reflexivity|]. rewrite blank_cut in H by discriminate. exact H. Qed.
  Lemma skip_blank_back s x : runs (skip_blank_body o) s x -> forall x', ascii (fst s) -> x = wide2 x' ->
    exists s', s = wide2 s' /\ runs (skip_blank_body oe) s' x'.
  Proof.
    apply (runs_back (skip_blank_body o) (skip_blank_body oe) (fun s => ascii (fst s)) (fun s s' => s = wide2 s') (fun s s' => s = wide2 s')).
    - intros [b st] s1 [b1' st1'] A H ->. cbn [fst] in A. unfold skip_blank_body in H. destruct (is_blank b) eqn:BL; [|discriminate].
      rewrite cache_static in H by exact OX. cbn [bind] in H. apply bind_inv in H as (y & AD & H). assert (y = wide2 (b1', st1')) as -> by congruence.
      destruct (adv_back _ _ _ _ _ A AD) as (b' & -> & AD' & L & A'). pose proof (nonempty_back _ _ _ L) as NE.
      exists (b', st). split; [reflexivity|]. unfold skip_blank_body. rewrite blank_cut in BL by exact NE. rewrite BL, cache_static by exact EX.
      cbn [bind]. rewrite AD'. reflexivity.
    - intros [b st] [b1 st1] A H. cbn [fst] in *. unfold skip_blank_body in H. destruct (is_blank b); [|discriminate].
      apply bind_inv in H as (? & _ & H). apply bind_inv in H as ([b2 st2] & AD & H). apply adv_ok in AD as (E & _).
      assert (b1 = b2) as -> by congruence. rewrite E. apply ascii_skipn, A.
    - intros [b st] z [b1' st1'] A H ->. cbn [fst] in *. unfold skip_blank_body in H. destruct (is_blank b) eqn:BL.
      { exfalso. apply bind_inv in H as (? & _ & H). apply bind_inv in H as (? & _ & H). discriminate. }
      exists (b1', st1'). assert ((b, st) = wide2 (b1', st1')) as X by congruence. split; [exact X|]. unfold wide2 in X. cbn [fst snd] in X.
      assert (b = b1' ++ r) as -> by congruence. unfold skip_blank_body. rewrite blank_empty_or; [reflexivity|eapply ascii_l, A|exact BL].
  Qed.
  Lemma skip_line_back s x : runs (skip_line_body o) s x -> forall x', ascii (fst s) -> x = wide2 x' ->
    exists s', s = wide2 s' /\ runs (skip_line_body oe) s' x'.
  Proof.
    apply (runs_back (skip_line_body o) (skip_line_body oe) (fun s => ascii (fst s)) (fun s s' => s = wide2 s') (fun s s' => s = wide2 s')).
    - intros [b st] s1 [b1' st1'] A H ->. cbn [fst] in A. unfold skip_line_body in H. destruct (is_breakZ b) eqn:BL; [discriminate|].
      rewrite cache_static in H by exact OX. cbn [bind] in H. apply bind_inv in H as (y & AD & H). assert (y = wide2 (b1', st1')) as -> by congruence.
      destruct (adv_back _ _ _ _ _ A AD) as (b' & -> & AD' & L & A'). pose proof (nonempty_back _ _ _ L) as NE.
      exists (b', st). split; [reflexivity|]. unfold skip_line_body. rewrite breakZ_cut in BL by assumption. rewrite BL, cache_static by exact EX.
      cbn [bind]. rewrite AD'. reflexivity.
    - intros [b st] [b1 st1] A H. cbn [fst] in *. unfold skip_line_body in H. destruct (is_breakZ b); [discriminate|].
      apply bind_inv in H as (? & _ & H). apply bind_inv in H as ([b2 st2] & AD & H). apply adv_ok in AD as (E & _).
      assert (b1 = b2) as -> by congruence. rewrite E. apply ascii_skipn, A.
    - intros [b st] z [b1' st1'] A H ->. cbn [fst] in *. unfold skip_line_body in H. destruct (is_breakZ b) eqn:BL.
      2: { exfalso. apply bind_inv in H as (? & _ & H). apply bind_inv in H as (? & _ & H). discriminate. }
      exists (b1', st1'). assert ((b, st) = wide2 (b1', st1')) as X by congruence. split; [exact X|]. unfold wide2 in X. cbn [fst snd] in X.
      assert (b = b1' ++ r) as -> by congruence. unfold skip_line_body. destruct b1' as [|c b1']; [reflexivity|].
      rewrite breakZ_cut in BL by (discriminate || eapply ascii_l, A). rewrite BL. reflexivity.
  Qed.
  Lemma wide2_inj s s' : wide2 s = wide2 s' -> s = s'.
  Proof.
    destruct s as [b st], s' as [b' st']. unfold wide2. cbn [fst snd]. intros E. assert (b ++ r = b' ++ r) as X by congruence.
    apply app_inv_tail in X. congruence.
  Qed.
  Lemma skip_blanks_back b st b1 st1 : ascii b -> b1 <> [] -> is_breakZ b1 = true -> skip_blanks o b st = Ok (b1 ++ r, st1) ->
    exists b', b = b' ++ r /\ b' <> [] /\ ascii b' /\ skip_blanks oe b' st = Ok (b1, st1).
  Proof.
    intros A N1 BZ H. unfold skip_blanks in H. rewrite cache_static in H by exact OX. cbn [bind] in H.
    apply bind_inv in H as ([b2 st2] & L & H). apply loop_runs in L.
    assert (A2 : ascii b2).
    { refine (runs_ind_inv (skip_blank_body o) (fun s => ascii (fst s)) (fun s => ascii (fst s)) _ _ _ _ L A).
      - intros [c s] [c1 s1] A1 B. cbn [fst] in *. unfold skip_blank_body in B. destruct (is_blank c); [|discriminate].
        apply bind_inv in B as (? & _ & B). apply bind_inv in B as ([c2 s2] & AD & B). apply adv_ok in AD as (E & _).
        assert (c1 = c2) as -> by congruence. rewrite E. apply ascii_skipn, A1.
      - intros [c s] [c1 s1] A1 B. cbn [fst] in *. unfold skip_blank_body in B. destruct (is_blank c).
        + apply bind_inv in B as (? & _ & B). apply bind_inv in B as (? & _ & B). discriminate.
        + assert (c1 = c) as -> by congruence. exact A1. }
    assert (X : exists b2', b2 = b2' ++ r /\ b2' <> [] /\
      (if at_is b2' 0 35 then loop (fuel_of b2') (skip_line_body oe) (b2', st2) else Ok (b2', st2)) = Ok (b1, st1)).
    { destruct (at_is b2 0 35) eqn:HA.
      - apply loop_runs in H. destruct (skip_line_back _ _ H (b1, st1) A2 eq_refl) as ([b2' st2'] & E & RU).
        unfold wide2 in E. cbn [fst snd] in E. assert (b2 = b2' ++ r) as -> by congruence. assert (st2' = st2) as -> by congruence.
        assert (NE : b2' <> []).
        { intros ->. inversion RU as [? ? B|? ? ? B]; subst; unfold skip_line_body in B; cbn in B; congruence. }
        exists b2'. split; [reflexivity|]. split; [exact NE|]. rewrite at_cut in HA by (destruct b2'; [congruence|apply Nat.lt_0_succ]). rewrite HA.
        apply (runs_fuel _ (fun x : str * stats => List.length (fst x)) _ _ RU); [apply skip_line_dec|apply Nat.lt_succ_diag_r].
      - assert (b2 = b1 ++ r) as -> by congruence. assert (st2 = st1) as -> by congruence. exists b1. split; [reflexivity|]. split; [exact N1|].
        rewrite at_cut in HA by (destruct b1; [congruence|apply Nat.lt_0_succ]). rewrite HA. reflexivity. }
    destruct X as (b2' & -> & N2 & X).
    destruct (skip_blank_back _ _ L (b2', st2) A eq_refl) as ([b' st'] & E & RU). unfold wide2 in E. cbn [fst snd] in E.
    assert (b = b' ++ r) as -> by congruence. assert (st' = st) as -> by congruence.
    exists b'. split; [reflexivity|]. split.
    { intros ->. inversion RU as [? ? B|? ? ? B]; subst; unfold skip_blank_body in B; cbn in B; congruence. }
    split; [eapply ascii_l, A|]. unfold skip_blanks. rewrite cache_static by exact EX. cbn [bind].
    rewrite (runs_fuel _ (fun x : str * stats => List.length (fst x)) _ _ RU); [exact X|apply skip_blank_dec|apply Nat.lt_succ_diag_r].
  Qed.
  Lemma headers_back b st ch ex b1 s1 : ascii b -> b1 <> [] -> scan_headers o b st = Ok (ch, ex, b1 ++ r, s1) ->
    exists b', b = b' ++ r /\ b' <> [] /\ ascii b' /\ scan_headers oe b' st = Ok (ch, ex, b1, s1).
  Proof.
    intros A N H. unfold scan_headers in H. rewrite cache_static in H by exact OX. cbn [bind] in H.
    set (d0 := match nth_error b 0 with Some _ => _ | None => None end) in H.
    set (d1 := match nth_error b 1 with Some _ => _ | None => None end) in H.
    set (ind := match d0 with Some d => Some d | None => d1 end) in H.
    destruct (if at_is b 0 43 || at_is b 1 43 then (Keep, 1) else if at_is b 0 45 || at_is b 1 45 then (Strip, 1) else (Clip, 0)) as [ch' k2] eqn:CH.
    apply bind_inv in H as ([b2 s2] & AD & H). assert (b2 = b1 ++ r) as -> by congruence.
    destruct (adv_back _ _ _ _ _ A AD) as (b' & EB & AD' & L & A').
    assert (NE : b' <> []).
    { intros ->. cbn [List.length] in L. destruct b1; [congruence|]. cbn [List.length] in L. lia. }
    exists b'. split; [exact EB|]. split; [exact NE|]. split; [exact A'|].
    unfold scan_headers. rewrite cache_static by exact EX. cbn [bind].
    destruct b' as [|c0 [|c1 b']]; [congruence| |].
    - assert (Z : match ind with Some _ => 1 | None => 0 end + k2 = 0).
      { destruct b1; [congruence|]. cbn [List.length] in L. clear - L. lia. }
      assert (IN : ind = None) by (destruct ind; [discriminate|reflexivity]). rewrite IN in *. cbn [Nat.add] in Z. subst k2.
      cbn [app] in EB. subst b. unfold at_is at 1 3 in CH. cbn [nth_error] in CH.
      assert (D0 : d0 = None) by (subst ind; destruct d0; [discriminate|reflexivity]). subst d0. cbn [nth_error] in D0.
      unfold at_is. cbn [nth_error]. rewrite D0. rewrite !orb_false_r.
      destruct (c0 =? 43)%N; [discriminate|]. cbn [orb] in CH. destruct (at_is _ 1 43); [discriminate|].
      destruct (c0 =? 45)%N; [discriminate|]. cbn [orb] in CH. destruct (at_is _ 1 45); [discriminate|].
      cbn [Nat.add] in *. rewrite AD'. cbn [bind]. clear - CH H. assert (ch' = Clip) as -> by congruence.
      assert (ch = Clip) as -> by congruence. assert (ex = None) as -> by congruence. assert (s1 = s2) as -> by congruence. reflexivity.
    - subst b. cbn [app] in *. subst ind d0 d1. unfold at_is in *. cbn [nth_error] in *. rewrite CH.
      rewrite AD'. cbn [bind]. clear - H. match type of H with Ok (_, ?e, _, _) = _ => assert (ex = e) as -> by congruence end.
      assert (ch = ch') as -> by congruence. assert (s1 = s2) as -> by congruence. reflexivity.
  Qed.
  Lemma block_header_back base st ch ex b s : ascii base -> block_header o base st = Ok (ch, ex, b ++ r, s) ->
    exists base', base = base' ++ r /\ base' <> [] /\ ascii base' /\ block_header oe base' st = Ok (ch, ex, b, s).
  Proof.
    intros A H. unfold block_header in H. rewrite cache_static in H by exact OX. cbn [bind] in H.
    apply bind_inv in H as ([b1 s1] & A1 & H). apply bind_inv in H as ([[[ch' ex'] b2] s2] & H2 & H).
    apply bind_inv in H as ([b3 s3] & H3 & H). rewrite cache_static in H by exact OX. cbn [bind] in H.
    destruct (is_wsZ b3) eqn:W; [|discriminate]. cbn [negb] in H. apply bind_inv in H as ([b4 s4] & A4 & H).
    assert (b4 = b ++ r) as -> by congruence. assert (s4 = s) as -> by congruence. assert (ch' = ch) as -> by congruence. assert (ex' = ex) as -> by congruence. clear H.
    assert (AA1 : ascii b1) by (apply adv_ok in A1 as (-> & _); apply ascii_skipn, A).
    assert (AA2 : ascii b2).
    { unfold scan_headers in H2. apply bind_inv in H2 as (? & _ & H2). cbv zeta in H2. match type of H2 with (let (_, _) := ?x in _) = _ => destruct x end.
      apply bind_inv in H2 as ([y z] & X & H2). assert (b2 = y) as -> by congruence. apply adv_ok in X as (-> & _). apply ascii_skipn, AA1. }
    pose proof (skip_blanks_leaf o b2 s2) as LF. rewrite H3 in LF. cbn [leaf] in LF. destruct LF as (RD & BL & _).
    assert (AA3 : ascii b3).
    { apply reads_ascii in RD; assumption. }
    assert (BR : is_break b3 = true).
    { unfold is_wsZ in W. rewrite BL in W. cbn [orb] in W. destruct (is_break b3); [reflexivity|]. destruct b3; [|discriminate].
      exfalso. apply adv_line_ok in A4 as (E & _). cbn in E. destruct b; [cbn in E; congruence|discriminate]. }
    destruct (line_back _ _ _ _ AA3 BR A4) as (b3' & -> & A4' & N3 & AA3').
    rewrite break_cut in BR by assumption.
    destruct (skip_blanks_back b2 s2 b3' s3 AA2 N3 ltac:(unfold is_breakZ; rewrite BR; reflexivity) H3) as (b2' & -> & N2 & AA2' & H3').
    destruct (headers_back b1 s1 ch ex b2' s2 AA1 N2 H2) as (b1' & -> & N1 & AA1' & H2').
    destruct (adv_back _ _ _ _ _ A A1) as (base' & -> & A1' & L & AB'). exists base'. split; [reflexivity|].
    split; [eapply nonempty_back, L|]. split; [exact AB'|].
    unfold block_header. rewrite cache_static by exact EX. cbn [bind]. rewrite A1'. cbn [bind]. rewrite H2'. cbn [bind]. rewrite H3'. cbn [bind].
    rewrite cache_static by exact EX. cbn [bind]. unfold is_wsZ. rewrite BR, orb_true_r. cbn [orb negb]. rewrite A4'. reflexivity.
  Qed.
  (** ** The indentation *)
  Definition wide3 {X} (s : str * stats * X) : str * stats * X := (fst (fst s) ++ r, snd (fst s), snd s).
  Lemma space_back l s x : runs (detect_space_body o l) s x -> forall x', ascii (fst (fst s)) -> x = wide3 x' ->
    exists s', s = wide3 s' /\ runs (detect_space_body oe l) s' x'.
  Proof.
    apply (runs_back (detect_space_body o l) (detect_space_body oe l) (fun s => ascii (fst (fst s))) (fun s s' => s = wide3 s') (fun s s' => s = wide3 s')).
    - intros [[b st] bo] s1 [[b1' st1'] bo1'] A H ->. cbn [fst] in A. unfold detect_space_body in H. destruct (is_blank b) eqn:BL; [|discriminate].
      rewrite cache_static in H by exact OX. cbn [bind] in H. destruct (at_is b 0 9) eqn:TB; [discriminate|].
      apply bind_inv in H as ([y z] & AD & H). unfold wide3 in H. cbn [fst snd] in H.
      assert (y = b1' ++ r) as -> by congruence. assert (z = st1') as -> by congruence.
      destruct (adv_back _ _ _ _ _ A AD) as (b' & -> & AD' & L & A'). pose proof (nonempty_back _ _ _ L) as NE.
      exists (b', st, bo). split; [reflexivity|]. unfold detect_space_body. rewrite blank_cut in BL by exact NE. rewrite BL, cache_static by exact EX.
      cbn [bind]. rewrite at_cut in TB by (rewrite L; apply Nat.lt_0_succ). rewrite TB, AD'. cbn [bind]. congruence.
    - intros s1 s2 A H. eapply detect_space_ascii; eauto.
    - intros [[b st] bo] z [[b1' st1'] bo1'] A H ->. apply detect_space_done in H as [E BL]. cbn [fst] in *.
      exists (b1', st1', bo1'). split; [congruence|]. unfold wide3 in E. cbn [fst snd] in E. assert (b = b1' ++ r) as -> by congruence.
      unfold detect_space_body. rewrite blank_empty_or; [reflexivity|eapply ascii_l, A|exact BL].
  Qed.
  Definition wide5 (s : str * stats * bool * nat * nat) : str * stats * bool * nat * nat :=
    let '(b, st, bo, l, i) := s in (b ++ r, st, bo, l, i).
  Lemma detect_back s x : runs (detect_body o) s x -> forall x', ascii (fst (fst (fst (fst s)))) -> x = wide5 x' ->
    exists s', s = wide5 s' /\ runs (detect_body oe) s' x'.
  Proof.
    apply (runs_back (detect_body o) (detect_body oe) (fun s => ascii (fst (fst (fst (fst s))))) (fun s s' => s = wide5 s') (fun s s' => s = wide5 s')).
    - intros [[[[b st] bo] l] i] s1 [[[[b1' st1'] bo1'] l1'] i1'] A H ->. cbn [fst] in A. unfold detect_body in H.
      rewrite cache_static in H by exact OX. cbn [bind] in H. apply bind_inv in H as ([[b2 st2] bo2] & L & H). apply loop_runs in L.
      destruct (detect_spaces_facts _ _ _ _ L A) as [A2 _]. cbn [fst] in A2.
      rewrite cache_static in H by exact OX. cbn [bind] in H. destruct (is_break b2) eqn:BR; [|discriminate]. cbn [negb] in H.
      apply bind_inv in H as ([y z] & AD & H). unfold wide5 in H.
      assert (y = b1' ++ r) as -> by congruence. assert (z = st1') as -> by congruence.
      destruct (line_back _ _ _ _ A2 BR AD) as (b2' & -> & AD' & N2 & A2').
      destruct (space_back _ _ _ L (b2', st2, bo2) A eq_refl) as ([[b' st'] bo'] & E & RU). unfold wide3 in E. cbn [fst snd] in E.
      assert (b = b' ++ r) as -> by congruence. assert (st' = st) as -> by congruence. assert (bo' = bo) as -> by congruence.
      exists (b', st, bo, l, i). split; [reflexivity|]. unfold detect_body. rewrite cache_static by exact EX. cbn [bind].
      rewrite (runs_fuel _ (fun x : str * stats * bool => List.length (fst (fst x))) _ _ RU); [|apply detect_space_dec|apply Nat.lt_succ_diag_r].
      cbn [bind]. rewrite cache_static by exact EX. cbn [bind]. rewrite break_cut in BR by assumption. rewrite BR. cbn [negb]. rewrite AD'. cbn [bind].
      congruence.
    - intros [[[[b st] bo] l] i] [[[[b1 st1] bo1] l1] i1] A H. cbn [fst] in *. unfold detect_body in H.
      rewrite cache_static in H by exact OX. cbn [bind] in H. apply bind_inv in H as ([[b2 st2] bo2] & L & H). apply loop_runs in L.
      destruct (detect_spaces_facts _ _ _ _ L A) as [A2 _]. cbn [fst] in A2.
      rewrite cache_static in H by exact OX. cbn [bind] in H. destruct (negb (is_break b2)); [discriminate|].
      apply bind_inv in H as ([y z] & AD & H). assert (b1 = y) as -> by congruence. apply adv_line_ok in AD as (-> & _). apply ascii_skipn, A2.
    - intros [[[[b st] bo] l] i] z [[[[b1' st1'] bo1'] l1'] i1'] A H ->. cbn [fst] in A. unfold detect_body in H.
      rewrite cache_static in H by exact OX. cbn [bind] in H. apply bind_inv in H as ([[b2 st2] bo2] & L & H). apply loop_runs in L.
      destruct (detect_spaces_facts _ _ _ _ L A) as [A2 _]. cbn [fst] in A2.
      rewrite cache_static in H by exact OX. cbn [bind] in H. destruct (is_break b2) eqn:BR; cbn [negb] in H.
      { exfalso. apply bind_inv in H as ([? ?] & _ & H). discriminate. }
      unfold wide5 in H. assert (b2 = b1' ++ r) as -> by congruence.
      destruct (space_back _ _ _ L (b1', st2, bo2) A eq_refl) as ([[b' st'] bo'] & E & RU). unfold wide3 in E. cbn [fst snd] in E.
      assert (b = b' ++ r) as -> by congruence. assert (st' = st) as -> by congruence. assert (bo' = bo) as -> by congruence.
      exists (b', st, bo, l, i). split; [reflexivity|]. unfold detect_body. rewrite cache_static by exact EX. cbn [bind].
      rewrite (runs_fuel _ (fun x : str * stats * bool => List.length (fst (fst x))) _ _ RU); [|apply detect_space_dec|apply Nat.lt_succ_diag_r].
      cbn [bind]. rewrite cache_static by exact EX. cbn [bind].
      assert (X : is_break b1' = false) by (destruct b1'; [reflexivity|]; rewrite break_cut in BR by (discriminate || eapply ascii_l, A2); exact BR).
      rewrite X. cbn [negb]. congruence.
  Qed.
  Lemma detect_dec s s1 : detect_body oe s = Ok (Next s1) -> ascii (fst (fst (fst (fst s)))) ->
    List.length (fst (fst (fst (fst s1)))) < List.length (fst (fst (fst (fst s)))).
  Proof.
    destruct s as [[[[b st] bo] l] i]. cbn [fst]. intros H A. unfold detect_body in H.
    rewrite cache_static in H by exact EX. cbn [bind] in H. apply bind_inv in H as ([[b2 st2] bo2] & L & H). apply loop_runs in L.
    destruct (detect_spaces_facts _ _ _ _ L A) as [A2 L2]. cbn [fst] in *.
    rewrite cache_static in H by exact EX. cbn [bind] in H. destruct (is_break b2) eqn:BR; [|discriminate]. cbn [negb] in H.
    apply bind_inv in H as ([y z] & AD & H). match type of H with Ok (Next ?x) = _ => assert (s1 = x) as -> by congruence end. cbn [fst].
    apply line_shorter in AD; [|exact BR]. lia.
  Qed.
  Lemma detect_level_back buf st bi l bo i b1 st1 l1 bo1 : ascii buf -> detect_indent_level o buf st bi l bo = Ok (i, b1 ++ r, st1, l1, bo1) ->
    exists buf', buf = buf' ++ r /\ detect_indent_level oe buf' st bi l bo = Ok (i, b1, st1, l1, bo1).
  Proof.
    intros A H. unfold detect_indent_level in H. apply bind_inv in H as ([[[[b2 st2] bo2] l2] i2] & L & H). apply loop_runs in L.
    assert (b2 = b1 ++ r) as -> by congruence.
    destruct (detect_back _ _ L (b1, st2, bo2, l2, i2) A eq_refl) as ([[[[b' st'] bo'] l'] i'] & E & RU). unfold wide5 in E.
    assert (buf = b' ++ r) as -> by congruence. assert (st' = st) as -> by congruence. assert (bo' = bo) as -> by congruence.
    assert (l' = l) as -> by congruence. assert (i' = 0) as -> by congruence.
    exists b'. split; [reflexivity|]. unfold detect_indent_level.
    assert (LP : loop (fuel_of b') (detect_body oe) (b', st, bo, l, 0) = Ok (b1, st2, bo2, l2, i2)).
    { apply (runs_loop _ _ _ RU). pose proof (detect_indent_leaf oe b' st bi l bo) as LF. unfold detect_indent_level in LF.
      intros F. unfold detect_body in LF, F. rewrite F in LF. exact LF. }
    rewrite LP. cbn [bind]. clear - H. match type of H with Ok (?e, _, _, _, _) = _ => assert (i = e) as -> by congruence end.
    assert (st1 = st2) as -> by congruence. assert (l1 = l2) as -> by congruence. assert (bo1 = bo2) as -> by congruence. reflexivity.
  Qed.

  Lemma indent_body_ascii i s s1 : ascii (fst (fst s)) -> scan_indent_body o i s = Ok (Next s1) -> ascii (fst (fst s1)).
  Proof.
    destruct s as [[b st] l]. unfold scan_indent_body. cbn [fst]. intros A H. destruct (_ && _); [|discriminate].
    apply bind_inv in H as (y & H1 & H). apply bind_inv in H as (? & _ & H). assert (y = s1) as -> by congruence.
    destruct (at_is b 0 32).
    { apply bind_inv in H1 as ([b2 st2] & AD & H1). match type of H1 with Ok ?x = _ => assert (s1 = x) as -> by congruence end. cbn [fst].
      apply adv_ok in AD as (-> & _). apply ascii_skipn, A. }
    destruct (at_is b 0 9); [discriminate|]. destruct (is_break b).
    { apply bind_inv in H1 as ([b2 st2] & AD & H1). match type of H1 with Ok ?x = _ => assert (s1 = x) as -> by congruence end. cbn [fst].
      apply adv_line_ok in AD as (-> & _). apply ascii_skipn, A. }
    assert (s1 = (b, st, l)) as -> by congruence. exact A.
  Qed.
  Lemma indent_loop_back i s x : runs (scan_indent_body o i) s x -> forall x', ascii (fst (fst s)) -> x = wide3 x' ->
    exists s', s = wide3 s' /\ runs (scan_indent_body oe i) s' x'.
  Proof.
    apply (runs_back (scan_indent_body o i) (scan_indent_body oe i) (fun s => ascii (fst (fst s))) (fun s s' => s = wide3 s') (fun s s' => s = wide3 s')).
    - intros [[b st] l] s1 [[b1' st1'] l1'] A H ->. cbn [fst] in A. unfold scan_indent_body in H.
      destruct (Nat.ltb (scol st) i) eqn:LT; [|discriminate]. cbn [andb] in H. destruct (is_ws b) eqn:W; [|discriminate].
      apply bind_inv in H as (y & H1 & H). apply bind_inv in H as (? & _ & H). assert (y = wide3 (b1', st1', l1')) as -> by congruence. clear H.
      unfold wide3 in H1. cbn [fst snd] in H1. unfold scan_indent_body.
      destruct (at_is b 0 32) eqn:S1.
      { apply bind_inv in H1 as ([b2 st2] & AD & H1). assert (b2 = b1' ++ r) as -> by congruence.
        destruct (adv_back _ _ _ _ _ A AD) as (b' & -> & AD' & L & A'). pose proof (nonempty_back _ _ _ L) as NE.
        exists (b', st, l). split; [reflexivity|]. rewrite LT. rewrite ws_cut in W by assumption. rewrite W. cbn [andb].
        rewrite at_cut in S1 by (rewrite L; apply Nat.lt_0_succ). rewrite S1, AD'. cbn [bind]. rewrite cache_static by exact EX. cbn [bind]. congruence. }
      destruct (at_is b 0 9) eqn:S2; [discriminate|]. destruct (is_break b) eqn:S3.
      { apply bind_inv in H1 as ([b2 st2] & AD & H1). assert (b2 = b1' ++ r) as -> by congruence.
        destruct (line_back _ _ _ _ A S3 AD) as (b' & -> & AD' & NE & A').
        assert (L : 0 < List.length b') by (destruct b'; [congruence|apply Nat.lt_0_succ]).
        exists (b', st, l). split; [reflexivity|]. rewrite LT. rewrite ws_cut in W by assumption. rewrite W. cbn [andb].
        rewrite at_cut in S1, S2 by exact L. rewrite break_cut in S3 by assumption. rewrite S1, S2, S3, AD'. cbn [bind].
        rewrite cache_static by exact EX. cbn [bind]. congruence. }
      exfalso. unfold is_ws, is_blank in W. rewrite S1, S2, S3 in W. discriminate.
    - intros s1 s2 A H. eapply indent_body_ascii; eauto.
    - intros [[b st] l] z [[b1' st1'] l1'] A H ->. cbn [fst] in A. unfold scan_indent_body in H.
      destruct (_ && _) eqn:C.
      { exfalso. apply bind_inv in H as (? & _ & H). apply bind_inv in H as (? & _ & H). discriminate. }
      exists (b1', st1', l1'). split; [congruence|]. unfold wide3 in H. cbn [fst snd] in H. assert (b = b1' ++ r) as -> by congruence.
      assert (st1' = st) as -> by congruence. unfold scan_indent_body.
      replace (Nat.ltb (scol st) i && is_ws b1') with false; [reflexivity|]. symmetry. destruct b1' as [|c b1']; [apply andb_false_r|].
      rewrite ws_cut in C by (discriminate || eapply ascii_l, A). exact C.
  Qed.
  Lemma scan_indent_back b st l i b1 st1 l1 : ascii b -> scan_indent o b st l i = Ok (b1 ++ r, st1, l1) ->
    exists b', b = b' ++ r /\ scan_indent oe b' st l i = Ok (b1, st1, l1).
  Proof.
    intros A H. unfold scan_indent in *. destruct (Nat.leb i (scol st)).
    { exists b1. clear - H. split; [congruence|]. assert (st = st1) as -> by congruence. assert (l = l1) as -> by congruence. reflexivity. }
    rewrite cache_static in H by exact OX. cbn [bind] in H. apply loop_runs in H.
    destruct (indent_loop_back _ _ _ H (b1, st1, l1) A eq_refl) as ([[b' st'] l'] & E & RU). unfold wide3 in E. cbn [fst snd] in E.
    assert (b = b' ++ r) as -> by congruence. assert (st' = st) as -> by congruence. assert (l' = l) as -> by congruence.
    exists b'. split; [reflexivity|]. rewrite cache_static by exact EX. cbn [bind].
    apply (runs_fuel _ (fun x : str * stats * nat => List.length (fst (fst x))) _ _ RU); [apply scan_indent_dec|apply Nat.lt_succ_diag_r].
  Qed.

  (** ** A line *)
  Definition widef (s : fstate) : fstate := mkF (f_buf s ++ r) (f_st s) (f_scr s) (f_bor s).
  Lemma line_loop_back s x : runs (block_line_body o) s x -> forall x', ascii (f_buf s) -> x = widef x' ->
    exists s', s = widef s' /\ runs (block_line_body oe) s' x'.
  Proof.
    apply (runs_back (block_line_body o) (block_line_body oe) (fun s => ascii (f_buf s)) (fun s s' => s = widef s') (fun s s' => s = widef s')).
    - intros [b st scr bo] s1 [b1' st1' scr1' bo1'] A H ->. cbn [f_buf] in A. unfold block_line_body in H. cbn [f_buf] in H.
      destruct (is_breakZ b) eqn:BZ; [discriminate|]. rewrite cache_static in H by exact OX. cbn [bind] in H.
      apply bind_inv in H as (y & AD & H). assert (y = widef (mkF b1' st1' scr1' bo1')) as -> by congruence. clear H.
      unfold f_adv in AD. apply bind_inv in AD as ([b2 st2] & AD & H). unfold widef in H. cbn [f_buf f_st f_scr f_bor] in H.
      destruct (push_head_buf (mkF b st scr bo)) as (E1 & E2 & E3). rewrite E1, E2 in AD. cbn [f_buf f_st] in AD. rewrite E3 in H. cbn [f_bor] in H.
      assert (b2 = b1' ++ r) as -> by congruence. assert (st1' = st2) as -> by congruence. assert (bo1' = bo) as -> by congruence.
      assert (X : f_scr (f_push_head (mkF b st scr bo)) = scr1') by congruence. clear H.
      destruct (adv_back _ _ _ _ _ A AD) as (b' & -> & AD' & L & A'). pose proof (nonempty_back _ _ _ L) as NE.
      exists (mkF b' st scr bo). split; [reflexivity|]. unfold block_line_body. cbn [f_buf]. rewrite breakZ_cut in BZ by assumption. rewrite BZ.
      rewrite cache_static by exact EX. cbn [bind]. unfold f_adv. destruct (push_head_buf (mkF b' st scr bo)) as (G1 & G2 & G3).
      rewrite G1, G2, G3. cbn [f_buf f_st f_bor]. rewrite AD'. cbn [bind]. f_equal. f_equal. f_equal.
      rewrite <- X. unfold f_push_head. cbn [f_bor f_buf]. destruct bo; [reflexivity|]. unfold f_push. cbn [f_scr f_buf].
      destruct b'; [congruence|reflexivity].
    - intros [b st scr bo] s1 A H. cbn [f_buf] in A. unfold block_line_body in H. cbn [f_buf] in H.
      destruct (is_breakZ b) eqn:BZ; [discriminate|]. rewrite cache_static in H by exact OX. cbn [bind] in H.
      apply bind_inv in H as (y & AD & H). assert (y = s1) as -> by congruence. unfold f_adv in AD. apply bind_inv in AD as ([b2 st2] & AD & X).
      destruct (push_head_buf (mkF b st scr bo)) as (E1 & E2 & E3). rewrite E1 in AD. cbn [f_buf] in AD.
      match type of X with Ok ?x = _ => assert (s1 = x) as -> by congruence end. cbn [f_buf]. apply adv_ok in AD as (-> & _). apply ascii_skipn, A.
    - intros [b st scr bo] z x' A H ->. cbn [f_buf] in A. unfold block_line_body in H. cbn [f_buf] in H. destruct (is_breakZ b) eqn:BZ.
      + exists x'. assert (X : mkF b st scr bo = widef x') by congruence. split; [exact X|]. apply (f_equal f_buf) in X. unfold widef in X. cbn [f_buf] in X.
        unfold block_line_body. replace (is_breakZ (f_buf x')) with true; [reflexivity|]. destruct (f_buf x') as [|c t]; [reflexivity|].
        rewrite X in BZ. rewrite breakZ_cut in BZ; [congruence|rewrite X in A; eapply ascii_l, A|discriminate].
      + exfalso. rewrite cache_static in H by exact OX. cbn [bind] in H. apply bind_inv in H as (? & _ & H). discriminate.
  Qed.
  Lemma line_body_dec s s1 : block_line_body oe s = Ok (Next s1) -> List.length (f_buf s1) < List.length (f_buf s).
  Proof.
    unfold block_line_body. destruct (is_breakZ (f_buf s)) eqn:BZ; [discriminate|]. rewrite cache_static by exact EX. cbn [bind]. intros H.
    apply bind_inv in H as (y & AD & H). assert (y = s1) as -> by congruence. unfold f_adv in AD. apply bind_inv in AD as ([b2 st2] & AD & X).
    destruct (push_head_buf s) as (E1 & E2 & E3). rewrite E1 in AD. match type of X with Ok ?x = _ => assert (s1 = x) as -> by congruence end. cbn [f_buf].
    apply adv_shorter in AD; [exact AD|]. destruct (f_buf s); discriminate.
  Qed.

  (** ** The lines *)
  Variable base' : str.
  Definition wideb (b : bstate) : bstate := mkB (widef (b_f b)) (b_start b) (b_end b) (b_lines b).
  Lemma pushed_wide fold l s : pushed fold l (widef s) = widef (pushed fold l s).
  Proof. unfold pushed. destruct fold; [destruct l as [|[|]]|]; reflexivity. Qed.
  Lemma unborrow_back st0 b s1 b4 : round_inv (base' ++ r) st0 b -> f_buf (b_f b) = b4 ++ r -> unborrow (base' ++ r) b = Ok s1 ->
    unborrow base' (mkB (mkF b4 (f_st (b_f b)) (f_scr (b_f b)) (f_bor (b_f b))) (b_start b) (b_end b) (b_lines b)) =
    Ok (mkF b4 (f_st s1) (f_scr s1) (f_bor s1)).
  Proof.
    intros (A & R & K) FB H. unfold unborrow in *. cbn [b_f f_bor b_lines b_start b_end f_buf f_st f_scr].
    destruct (f_bor (b_f b)) eqn:BO; cbn [andb] in *.
    - destruct (b_lines b) as [|l] eqn:LN; cbn [Nat.ltb Nat.leb] in *.
      + assert (s1 = b_f b) as -> by congruence. rewrite BO. reflexivity.
      + destruct (K eq_refl) as (K1 & K2 & K3). destruct K3 as (K3 & K4 & _); [discriminate|].
        apply bind_inv in H as (t & SL & H). match type of H with Ok ?x = _ => assert (s1 = x) as -> by congruence end. cbn [f_st f_scr f_bor].
        assert (EL : b_end b <= List.length base').
        { unfold consumed in K2. rewrite FB, !app_length in K2. clear - K2. unfold byte in *. lia. }
        assert (A' : ascii base') by (eapply ascii_l, A).
        rewrite slice_ascii in SL |- *; try assumption; try (rewrite app_length; clear - EL; unfold byte in *; lia).
        cbn [bind]. do 3 f_equal. assert (t = firstn (b_end b - b_start b) (skipn (b_start b) (base' ++ r))) as -> by congruence.
        rewrite skipn_app, firstn_app, skipn_length. replace (_ - _ - _) with 0 by (clear - EL K4; unfold byte in *; lia).
        rewrite firstn_O, app_nil_r. reflexivity.
    - assert (s1 = b_f b) as -> by congruence. rewrite BO. reflexivity.
  Qed.
  Lemma block_loop_back st0 i fold b x : runs (block_body o (base' ++ r) st0 i fold) b x ->
    forall x', round_inv (base' ++ r) st0 b -> x = wideb x' ->
    exists b', b = wideb b' /\ runs (block_body oe base' st0 i fold) b' x'.
  Proof.
    revert b x. apply (runs_back (block_body o (base' ++ r) st0 i fold) (block_body oe base' st0 i fold) (round_inv (base' ++ r) st0)
      (fun b b' => b = wideb b') (fun b b' => b = wideb b')).
    - intros b b1 b1' I H E. pose proof (block_body_leaf o (base' ++ r) st0 i fold b) as LF. rewrite H in LF. cbn [leaf] in LF. destruct LF as [_ LL].
      assert (AB : ascii (f_buf (b_f b))) by (destruct I as (A & R & _); apply reads_len in R as (_ & _ & ->); apply ascii_skipn, A).
      rewrite block_body_eq in H by exact OX. destruct (Nat.eqb (scol (f_st (b_f b))) i) eqn:CI; [|discriminate]. cbn [andb] in H.
      destruct (is_empty (f_buf (b_f b))) eqn:EM; [discriminate|]. cbn [negb] in H. cbv zeta in H.
      apply bind_inv in H as (s1 & H1 & H). destruct (unborrow_same _ _ _ H1) as (E1 & E2 & E3).
      destruct (pushed_same fold (b_lines b) s1) as (F1 & F2 & F3). remember (pushed fold (b_lines b) s1) as s2 eqn:ES2.
      apply bind_inv in H as (s3 & H3 & H). pose proof (block_line_leaf o s2) as LF. rewrite H3 in LF. cbn [leaf] in LF. destruct LF as (R3 & BZ & B3).
      assert (A3 : ascii (f_buf s3)) by (apply reads_len in R3 as (_ & _ & ->); rewrite F1, E1; apply ascii_skipn, AB).
      apply bind_inv in H as ([s4 l4] & H4 & H). apply bind_inv in H as ([[b5 st5] l5] & H5 & H).
      match type of H with Ok (Next ?x) = _ => assert (EB : b1 = x) by congruence end. clear H. rewrite E in EB, LL. destruct b1' as [[b5' st5' scr5' bo5'] start5 end5 lines5].
      unfold wideb, widef in EB. cbn [b_f f_buf f_st f_scr f_bor b_start b_end b_lines] in EB.
      assert (b5 = b5' ++ r) as -> by congruence. assert (st5' = st5) as -> by congruence. assert (scr5' = f_scr s4) as -> by congruence.
      assert (bo5' = f_bor s4) as -> by congruence. assert (start5 = start_of st0 b s2) as -> by congruence.
      assert (end5 = end_of st0 s3) as -> by congruence. assert (lines5 = l5) as -> by congruence. clear EB E.
      assert (A4 : ascii (f_buf s4)).
      { destruct (is_break (f_buf s3)); [|assert (s4 = s3) as -> by congruence; exact A3].
        apply bind_inv in H4 as (y & AD & H4). assert (y = s4) as -> by congruence. unfold f_adv_line in AD. apply bind_inv in AD as ([y z] & AD & H6).
        match type of H6 with Ok ?x = _ => assert (s4 = x) as -> by congruence end. cbn [f_buf]. apply adv_line_ok in AD as (-> & _). apply ascii_skipn, A3. }
      destruct (scan_indent_back _ _ _ _ _ _ _ A4 H5) as (b4' & E4 & H5').
      destruct (is_break (f_buf s3)) eqn:BR.
      2:{ exfalso. assert (s4 = s3) as -> by congruence. unfold is_breakZ in BZ. rewrite BR, E4 in BZ. destruct b4'; [destruct r; [congruence|]|]; discriminate. }
      apply bind_inv in H4 as (y & AD & H4). assert (y = s4) as -> by congruence. assert (l4 = 1) as -> by congruence. clear H4.
      unfold f_adv_line in AD. apply bind_inv in AD as ([y z] & AD & H6).
      match type of H6 with Ok ?x = _ => assert (s4 = x) as -> by congruence end. clear H6. cbn [f_buf f_st f_scr f_bor] in *. subst y.
      destruct (line_back _ _ _ _ A3 BR AD) as (b3' & E3' & AD' & NE3 & A3').
      destruct (line_loop_back s2 s3 (loop_runs _ _ _ _ H3) (mkF b3' (f_st s3) (f_scr s3) (f_bor s3))) as (s2' & ES & RU).
      { rewrite F1, E1. exact AB. } { destruct s3 as [v1 v2 v3 v4]. unfold widef. cbn [f_buf f_st f_scr f_bor] in *. congruence. }
      assert (FB : f_buf (b_f b) = f_buf s2' ++ r) by (rewrite <- E1, <- F1, ES; reflexivity).
      exists (mkB (mkF (f_buf s2') (f_st (b_f b)) (f_scr (b_f b)) (f_bor (b_f b))) (b_start b) (b_end b) (b_lines b)).
      split. { destruct b as [[v1 v2 v3 v4] v5 v6 v7]. unfold wideb, widef. cbn [b_f f_buf f_st f_scr f_bor b_start b_end b_lines] in *. congruence. }
      rewrite block_body_eq by exact EX. cbn [b_f f_buf f_st]. rewrite CI.
      assert (NE : is_empty (f_buf s2') = false).
      { unfold wideb, widef in LL. cbn [b_f f_buf] in LL. rewrite FB, !app_length in LL. destruct (f_buf s2'); [cbn in LL; clear - LL; unfold byte in *; lia|reflexivity]. }
      rewrite NE. cbn [andb negb]. rewrite (unborrow_back st0 b s1 (f_buf s2') I FB H1). cbn [bind b_lines]. cbv zeta.
      assert (S2 : pushed fold (b_lines b) (mkF (f_buf s2') (f_st s1) (f_scr s1) (f_bor s1)) = s2').
      { assert (W : widef (pushed fold (b_lines b) (mkF (f_buf s2') (f_st s1) (f_scr s1) (f_bor s1))) = widef s2').
        { rewrite <- pushed_wide, <- ES, ES2. f_equal. destruct s1 as [v1 v2 v3 v4]. unfold widef. cbn [f_buf f_st f_scr f_bor] in *. congruence. }
        destruct (pushed_same fold (b_lines b) (mkF (f_buf s2') (f_st s1) (f_scr s1) (f_bor s1))) as (P1 & P2 & P3).
        set (q := pushed fold (b_lines b) (mkF (f_buf s2') (f_st s1) (f_scr s1) (f_bor s1))) in *. clearbody q. pose proof (f_equal f_st W) as W2. pose proof (f_equal f_scr W) as W3. pose proof (f_equal f_bor W) as W4. clear - P1 W2 W3 W4.
        destruct q as [q1 q2 q3 q4]. destruct s2' as [u1 u2 u3 u4]. unfold widef in *. cbn [f_buf f_st f_scr f_bor] in *. subst. reflexivity. }
      rewrite S2. rewrite (runs_fuel _ (fun s => List.length (f_buf s)) _ _ RU); [|apply line_body_dec|apply Nat.lt_succ_diag_r].
      cbn [bind f_buf]. rewrite E3' in BR. rewrite break_cut in BR by assumption. rewrite BR. unfold f_adv_line. cbn [f_buf f_st f_scr f_bor]. rewrite AD'. cbn [bind f_buf f_st f_scr f_bor].
      rewrite H5'. cbn [bind]. do 3 f_equal. unfold start_of. cbn [b_start]. rewrite ES. reflexivity.
    - intros s s1 I H. exact (round_keeps o _ _ _ _ _ _ OX I H).
    - intros b z x' I H ->. pose proof (block_body_leaf o (base' ++ r) st0 i fold b) as LF. rewrite H in LF. cbn [leaf] in LF. subst b.
      exists x'. split; [reflexivity|]. rewrite block_body_eq in H by exact OX. rewrite block_body_eq by exact EX.
      destruct x' as [[bb ss cc oo] s e l]. unfold wideb, widef in H. cbn [b_f f_st f_buf] in *.
      destruct (Nat.eqb (scol ss) i); [|reflexivity]. cbn [andb] in *. destruct bb as [|c t]; [reflexivity|].
      exfalso. cbn [is_empty app negb] in H. cbv zeta in H. do 4 (apply bind_inv in H as (? & _ & H); repeat match type of H with (let '(_, _) := ?x in _) = _ => destruct x end). discriminate.
  Qed.
  Lemma block_round_dec st0 i fold s s1 : block_body oe base' st0 i fold s = Ok (Next s1) -> List.length (f_buf (b_f s1)) < List.length (f_buf (b_f s)).
  Proof. intros H. pose proof (block_body_leaf oe base' st0 i fold s) as LF. rewrite H in LF. apply LF. Qed.
End Cut.

(** ** The end of the scalar *)
Lemma slice_cut {E} x y a b : ascii (x ++ y) -> b <= List.length x -> slice (E := E) (x ++ y) a b = slice x a b.
Proof.
  intros A L. assert (A' : ascii x) by (eapply ascii_l, A). destruct (Nat.leb a b) eqn:LE.
  - apply Nat.leb_le in LE. rewrite !slice_ascii; try assumption; [|rewrite app_length; clear - L; unfold byte in *; lia].
    rewrite skipn_app, firstn_app, skipn_length. replace (_ - _ - _) with 0 by (clear - L LE; unfold byte in *; lia).
    rewrite firstn_O, app_nil_r. reflexivity.
  - unfold slice. rewrite LE. reflexivity.
Qed.
Lemma firstn_more {A} a b (l : list A) : firstn (a + b) l = firstn a l ++ firstn b (skipn a l).
Proof. revert l. induction a; intros [|x l]; cbn; rewrite ?firstn_nil; [reflexivity..|]. f_equal. apply IHa. Qed.
Lemma chomp_cut base' r scr bo ch s e l c : r <> [] -> ascii (base' ++ r) ->
  (bo = true -> e <= List.length base' /\
    (l <> 0 -> e < List.length base' /\ s <= e /\ exists x, nth_error (base' ++ r) e = Some x /\ (x = 10%N \/ x = 13%N))) ->
  scan_chomp (base' ++ r) scr bo ch s e l = Ok c ->
  exists c', scan_chomp base' scr bo ch s e l = Ok c' /\ up_to_break c c'.
Proof.
  intros NR A K H. assert (A' : ascii base') by (eapply ascii_l, A).
  assert (ID : forall q : sres cow, Ok c = q -> exists c', q = Ok c' /\ up_to_break c c') by (intros q <-; exists c; split; [reflexivity|left; reflexivity]).
  unfold scan_chomp in *. destruct bo; [|apply ID; congruence]. destruct (K eq_refl) as [K1 K2]. destruct ch.
  - destruct l as [|l]; cbn [bind] in *; [rewrite slice_cut in H by assumption; apply ID; congruence|].
    destruct (K2 ltac:(discriminate)) as (K3 & KS & x & NX & X). rewrite slice_ascii in H |- *; try assumption; try apply le_n;
      try (rewrite ?app_length; clear - K1; unfold byte in *; lia). cbn [bind] in *.
    rewrite !firstn_all2 in H |- * by (rewrite ?skipn_length, ?app_length; clear; unfold byte in *; lia).
    assert (W : forall t, ascii t -> width_at t 1 = if Nat.ltb 1 (List.length t) then 1 else 0).
    { intros [|p [|q t]] At; [reflexivity..|]. unfold width_at. cbn. inversion At; subst. inversion H3; subst. apply (width_ascii q []). assumption. }
    rewrite W in H |- * by (apply ascii_skipn; assumption). rewrite skipn_length in H |- *.
    replace (Nat.ltb 1 (List.length (base' ++ r) - e)) with true in H
      by (rewrite app_length; destruct r; [congruence|]; cbn [List.length]; symmetry; apply Nat.ltb_lt; clear - K3; unfold byte in *; lia).
    destruct (Nat.ltb 1 (List.length base' - e)) eqn:LT.
    + rewrite slice_cut in H by (assumption || (apply Nat.ltb_lt in LT; clear - LT; unfold byte in *; lia)). apply ID. congruence.
    + apply bind_inv in H as (t & SL & H). assert (c = Borrowed t) as -> by congruence. clear H.
      assert (t = firstn (e + 1 - s) (skipn s (base' ++ r))) as ->.
      { rewrite slice_ascii in SL; [congruence|exact A|clear - KS; lia|rewrite app_length; clear - K3; unfold byte in *; lia]. }
      rewrite Nat.add_0_r, slice_ascii by assumption. cbn [bind]. eexists. split; [reflexivity|]. right. exists x. split; [exact X|]. cbn [cow_str].
      rewrite skipn_app, firstn_app, skipn_length. replace (e + 1 - s - _) with 0 by (clear - K3; unfold byte in *; lia). rewrite firstn_O, app_nil_r.
      rewrite nth_error_app1 in NX by exact K3. replace (e + 1 - s) with (e - s + 1) by (clear - KS; lia). rewrite firstn_more. f_equal.
      rewrite skipn_skipn. replace (s + (e - s)) with e by (clear - KS; lia). apply nth_error_split in NX as (u & v & -> & <-).
      rewrite skipn_app, Nat.sub_diag, skipn_all. reflexivity.
  - rewrite slice_cut in H by assumption. apply ID. congruence.
  - destruct l as [|[|l]].
    + rewrite Nat.add_0_r in H |- *. rewrite slice_cut in H by assumption. apply ID. congruence.
    + destruct (K2 ltac:(discriminate)) as (K3 & _). rewrite slice_cut in H by (assumption || (clear - K3; unfold byte in *; lia)). apply ID. congruence.
    + rewrite slice_cut in H by assumption. apply ID. congruence.
Qed.

Theorem block_narrow c t st i fold tok n st' : plain_byte c -> ascii (c :: t) ->
  scan_block_scalar_eager EG (c :: t) st i fold = Ok (tok, n, st') ->
  exists x x', tok = TScalar x (if fold then Folded else Literal) /\ up_to_break x x' /\
    exists m st2, scan_block_scalar_eager LZ (firstn n (c :: t)) st i fold = Ok (TScalar x' (if fold then Folded else Literal), m, st2).
Proof.
  intros PB A H. unfold scan_block_scalar_eager in H. 
  apply bind_inv in H as ([[[ch ex] buf] local] & HD & H). apply bind_inv in H as ([[[[ind b1] s1] l1] bo1] & D & H).
  remember (if bo1 then (sread s1 - sread st, []) else (0, repeat 10%N l1)) as p eqn:EP. destruct p as [start scratch].
  apply bind_inv in H as (b & L & H). apply bind_inv in H as (txt & CH & H).
  match type of H with Ok (?x, _, _) = _ => assert (tok = x) as -> by congruence end. assert (n = consumed (c :: t) (f_buf (b_f b))) as -> by congruence.
  assert (st' = f_st (b_f b)) as -> by congruence. clear H.
  pose proof (block_header_leaf EG c t st PB) as LF. rewrite HD in LF. cbn [leaf] in LF. destruct LF as (_ & _ & _ & LB & RD).
  assert (R1 : reads buf local b1 s1).
  { destruct ex as [e|]; [assert (b1 = buf) as -> by congruence; assert (s1 = local) as -> by congruence; constructor|].
    pose proof (detect_indent_leaf EG buf local i 0 true) as LF. rewrite D in LF. apply LF. }
  assert (R2 : reads b1 s1 (f_buf (b_f b)) (f_st (b_f b))).
  { apply loop_runs in L. 
    apply (runs_ind_inv _ (fun x => reads b1 s1 (f_buf (b_f x)) (f_st (b_f x))) (fun x => reads b1 s1 (f_buf (b_f x)) (f_st (b_f x)))) with (3 := L).
    - intros x y RX BX. pose proof (block_body_leaf EG (c :: t) st ind fold x) as LF. rewrite BX in LF. cbn [leaf] in LF. eapply reads_trans; [exact RX|apply LF].
    - intros x y RX BX. pose proof (block_body_leaf EG (c :: t) st ind fold x) as LF. rewrite BX in LF. cbn [leaf] in LF. subst y. exact RX.
    - constructor. }
  assert (SUF : f_buf (b_f b) <> [] -> reads (c :: t) st buf local).
  { intros NE. destruct RD as [RD|[E _]]; [exact RD|]. exfalso. apply NE. apply reads_len in R1 as (X1 & _). apply reads_len in R2 as (X2 & _).
    rewrite E in X1. cbn in X1. destruct (f_buf (b_f b)); [reflexivity|]. cbn in X2. clear - X1 X2. unfold byte in *. lia. }
  destruct (f_buf (b_f b)) as [|r1 r2] eqn:FB.
  { unfold consumed. cbn [List.length]. rewrite Nat.sub_0_r. exists txt, txt. split; [reflexivity|]. split; [left; reflexivity|].
    rewrite firstn_all2 by apply le_n. unfold scan_block_scalar_eager. change (block_header LZ (c :: t) st) with (block_header EG (c :: t) st). rewrite HD. cbn [bind].
    change (detect_indent_level LZ) with (detect_indent_level EG). rewrite D. cbn [bind]. rewrite <- EP.
    change (block_body LZ) with (block_body EG). rewrite L. cbn [bind]. rewrite CH. cbn [bind]. eauto. }
  specialize (SUF ltac:(discriminate)). rewrite <- FB in *. assert (NR : f_buf (b_f b) <> []) by (rewrite FB; discriminate).
  set (r := f_buf (b_f b)) in *. assert (R3 : reads (c :: t) st r (f_st (b_f b))) by (eapply reads_trans; [exact SUF|eapply reads_trans; eauto]).
  assert (ER : r = skipn (consumed (c :: t) r) (c :: t)) by (apply reads_len in R3 as (_ & _ & X); exact X).
  set (base := c :: t) in *. set (n := consumed base r) in *. set (base' := firstn n base).
  assert (EB : base = base' ++ r) by (rewrite ER; symmetry; apply firstn_skipn).
  assert (AB : ascii buf) by (apply reads_len in SUF as (_ & _ & ->); apply ascii_skipn, A).
  assert (AB1 : ascii b1) by (apply reads_len in R1 as (_ & _ & ->); apply ascii_skipn, AB).
  assert (RI : round_inv base st (mkB (mkF b1 s1 scratch bo1) start 0 0)).
  { split; [exact A|]. cbn [b_f f_buf f_st f_bor b_start b_end b_lines]. assert (R4 : reads base st b1 s1) by (eapply reads_trans; [exact SUF|exact R1]).
    split; [exact R4|]. intros ->. assert (start = sread s1 - sread st) as -> by congruence. apply reads_len in R4 as (X1 & X2 & _).
    unfold consumed. split; [clear - X1 X2; unfold byte in *; lia|]. split; [apply Nat.le_0_l|congruence]. }
  assert (RE : round_inv base st b).
  { apply loop_runs in L. apply (runs_ind_inv _ (round_inv base st) (round_inv base st)) with (3 := L); [| |exact RI].
    - intros x y IX BX. exact (round_keeps EG _ _ _ _ _ _ eq_refl IX BX).
    - intros x y IX BX. pose proof (block_body_leaf EG base st ind fold x) as LF. rewrite BX in LF. cbn [leaf] in LF. subst y. exact IX. }
  pose proof L as RU. apply loop_runs in RU. rewrite EB in RU at 1.
  destruct (block_loop_back EG LZ r eq_refl eq_refl NR base' st ind fold _ _ RU (mkB (mkF [] (f_st (b_f b)) (f_scr (b_f b)) (f_bor (b_f b))) (b_start b) (b_end b) (b_lines b)))
    as (q & EQ & RQ); [rewrite <- EB; exact RI|unfold r; destruct b as [[v1 v2 v3 v4] v5 v6 v7]; reflexivity|].
  assert (QB : b1 = f_buf (b_f q) ++ r) by (apply (f_equal (fun x => f_buf (b_f x))) in EQ; exact EQ).
  assert (Q : q = mkB (mkF (f_buf (b_f q)) s1 scratch bo1) start 0 0).
  { pose proof (f_equal (fun x => f_st (b_f x)) EQ) as Q1. pose proof (f_equal (fun x => f_scr (b_f x)) EQ) as Q2. pose proof (f_equal (fun x => f_bor (b_f x)) EQ) as Q3.
    pose proof (f_equal b_start EQ) as Q4. pose proof (f_equal b_end EQ) as Q5. pose proof (f_equal b_lines EQ) as Q6. clear - Q1 Q2 Q3 Q4 Q5 Q6.
    destruct q as [[v1 v2 v3 v4] v5 v6 v7]. unfold wideb, widef in *. cbn [b_f f_buf f_st f_scr f_bor b_start b_end b_lines] in *. subst. reflexivity. }
  set (b1' := f_buf (b_f q)) in *. clearbody b1'. subst q. clear EQ.
  assert (DB : exists buf', buf = buf' ++ r /\
    match ex with Some e => Ok (E := scan_error) (i + e, buf', local, 0, true) | None => detect_indent_level LZ buf' local i 0 true end = Ok (ind, b1', s1, l1, bo1)).
  { destruct ex as [e|].
    - exists b1'. clear - D QB. assert (buf = b1) as -> by congruence. split; [exact QB|]. assert (i + e = ind) as -> by congruence. assert (local = s1) as -> by congruence.
      assert (l1 = 0) as -> by congruence. assert (bo1 = true) as -> by congruence. reflexivity.
    - rewrite QB in D. apply (detect_level_back EG LZ r eq_refl eq_refl NR) in D; [exact D|exact AB]. }
  destruct DB as (buf' & E1 & D'). pose proof HD as HD'. rewrite E1 in HD'.
  apply (block_header_back EG LZ r eq_refl eq_refl NR) in HD'; [|exact A]. destruct HD' as (bs & E2 & _ & _ & HD').
  assert (bs = base') as -> by (rewrite EB in E2; apply app_inv_tail in E2; congruence).
  assert (CHK : exists c', scan_chomp base' (f_scr (b_f b)) (f_bor (b_f b)) ch (b_start b) (b_end b) (b_lines b) = Ok c' /\ up_to_break txt c').
  { rewrite EB in CH. apply (chomp_cut base' r); [exact NR|rewrite <- EB; exact A| |exact CH]. intros BO. destruct RE as (_ & _ & K). destruct (K BO) as (K1 & K2 & K3).
    fold r in K2, K3. assert (LN : consumed base r = List.length base') by (unfold consumed; rewrite EB, app_length; clear; unfold byte in *; lia).
    rewrite LN in K2, K3. split; [exact K2|]. rewrite <- EB. exact K3. }
  destruct CHK as (x' & CH' & UB). exists txt, x'. split; [reflexivity|]. split; [exact UB|].
  unfold scan_block_scalar_eager. rewrite HD'. cbn [bind]. match goal with |- context [bind ?x _] => change x with (match ex with Some e => Ok (E := scan_error) (i + e, buf', local, 0, true) | None => detect_indent_level LZ buf' local i 0 true end) end. rewrite D'. cbn [bind]. rewrite <- EP.
  rewrite (runs_fuel _ (fun s => List.length (f_buf (b_f s))) _ _ RQ); [|apply block_round_dec|].
  - cbn [bind b_f f_scr f_bor b_start b_end b_lines f_buf f_st]. rewrite CH'. cbn [bind]. eauto.
  - cbn [b_f f_buf]. unfold fuel_of. apply Nat.lt_succ_r. assert (X : List.length b1 <= List.length base).
    { apply reads_len in SUF as (X1 & _). apply reads_len in R1 as (X2 & _). clear - X1 X2. unfold byte in *. lia. }
    rewrite QB, EB, !app_length in X. clear - X. unfold byte in *. lia.
Qed.
