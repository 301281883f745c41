(** Cut texts: block scalars. *)
From Verif Require Import CutFacts CutLeaf CutScalar QuotedFacts FlowFacts Contract.
From Coq Require Import Lia ZifyBool ZifyN ZifyNat.
Open Scope nat_scope.

Lemma boundary_full (s : str) : is_boundary s (List.length s) = true.
Proof.
  unfold is_boundary. destruct (List.length s) eqn:L; [reflexivity|].
  destruct (nth_error s (S n)) eqn:N; [|apply Nat.eqb_refl].
  assert (S n < List.length s) by (apply nth_error_Some; congruence). lia.
Qed.

(** Texts without carriage returns. *)
Definition noret (b : str) : Prop := ~ In 13%N b.
Lemma noret_skipn b n : noret b -> noret (skipn n b).
Proof. intros H I. apply H. rewrite <- (firstn_skipn n b). apply in_or_app. right. exact I. Qed.
Lemma adv_noret b st n p : adv b st n = Ok p -> noret b -> noret (fst p).
Proof.
  unfold adv. intros H N. apply bind_inv in H as (r & A & H). apply skip_ok in A as (-> & _).
  injection H as <-. apply noret_skipn, N.
Qed.
Lemma loop_keeps {S R} (body : S -> sres (step S R)) (P : S -> Prop) (Q : R -> Prop) :
  (forall s x, P s -> body s = Ok x -> match x with Next s1 => P s1 | Done r => Q r end) ->
  forall f s r, P s -> loop f body s = Ok r -> Q r.
Proof.
  intros H. induction f as [|f IH]; intros s r HP; [discriminate|]. cbn [loop].
  destruct (body s) as [[s1|r1]| | |] eqn:B; try discriminate.
  - apply IH. exact (H _ _ HP B).
  - intros Q1. assert (r1 = r) as <- by congruence. exact (H _ _ HP B).
Qed.
Lemma headers_noret o b st c e b1 st1 : scan_headers o b st = Ok (c, e, b1, st1) -> noret b -> noret b1.
Proof.
  unfold scan_headers. intros H N. apply bind_inv in H as ([] & _ & H). cbv zeta beta in H.
  match type of H with (let '(_, _) := ?x in _) = _ => destruct x as [ch s2] end.
  apply bind_inv in H as ([b2 st2] & A & H). apply adv_noret in A; [|exact N]. cbn [fst] in A. congruence.
Qed.
Lemma skip_blanks_noret o b st b1 st1 : skip_blanks o b st = Ok (b1, st1) -> noret b -> noret b1.
Proof.
  unfold skip_blanks. intros H N. apply bind_inv in H as ([] & _ & H). apply bind_inv in H as ([b2 st2] & A & H).
  assert (noret b2) as N2.
  { revert A. apply (loop_keeps _ (fun p : str * stats => noret (fst p)) (fun p : str * stats => noret (fst p))); [|exact N].
    clear. intros [b st] x N. unfold skip_blank_body. destruct (is_blank b).
    - intros H. apply bind_inv in H as ([] & _ & H). apply bind_inv in H as (p & A & H). apply adv_noret in A; [|exact N].
      assert (x = Next p) as -> by congruence. exact A.
    - intros H. assert (x = Done (b, st)) as -> by congruence. exact N. }
  destruct (at_is b2 0 35); [|congruence].
  revert H. apply (loop_keeps _ (fun p : str * stats => noret (fst p)) (fun p : str * stats => noret (fst p))); [|exact N2].
  clear. intros [b st] x N. unfold skip_line_body. destruct (is_breakZ b).
  - intros H. assert (x = Done (b, st)) as -> by congruence. exact N.
  - intros H. apply bind_inv in H as ([] & _ & H). apply bind_inv in H as (p & A & H). apply adv_noret in A; [|exact N].
    assert (x = Next p) as -> by congruence. exact A.
Qed.

Lemma simk_note {A B} K (R : A -> B -> Prop) x y : simk K R x y -> simk K (fun a b => x = Ok a /\ R a b) x y.
Proof. destruct x as [a|e| |]; cbn; auto. intros [H|(b & -> & H)]; [left; exact H|right; eauto]. Qed.

Section Block.
  Variables (t : str) (o o' : flags).
  Hypothesis E : extendable o = true.
  Notation near := (near t).
  Notation grown := (grown t).
  Notation fgrow := (fgrow t).
  Notation fr := (fr t).

  Lemma headers_sim K L b st : near K L b st ->
    sim (fun p p' => exists c e b1 st1, p = (c, e, b1, st1) /\ p' = (c, e, b1 ++ t, st1) /\ near K L b1 st1)
      (scan_headers o b st) (scan_headers o' (b ++ t) st).
  Proof.
    intros H. unfold scan_headers.
    eapply sim_bind; [apply cache_sim, E|]. intros [] [] L2. cbv zeta beta.
    rewrite !nth_error_app1, !at_is_app by lia.
    match goal with |- sim _ (let '(_, _) := ?x in _) _ => destruct x as [ch s2] eqn:X end.
    assert (s2 <= 1) as S2.
    { destruct (at_is b 0 43 || at_is b 1 43); [injection X as <- <-; lia|].
      destruct (at_is b 0 45 || at_is b 1 45); injection X as <- <-; lia. }
    match goal with |- sim _ (let* _ := adv _ _ ?n in _) _ => assert (n <= 2) as S1 end.
    { match goal with |- context [match ?x with Some _ => 1 | None => 0 end] => destruct x end; lia. }
    eapply sim_bind; [apply (adv_sim t K L); [exact H|lia]|].
    intros [b1 st1] p' ((-> & H1) & _). apply sim_ok. cbn [fst snd] in *. eauto 8.
  Qed.

  Lemma skip_blanks_sim K L b st : near K L b st ->
    simk (fun p => fst p = []) (fun p p' => grown K L p p' /\ fst p <> [])
      (skip_blanks o b st) (skip_blanks o' (b ++ t) st).
  Proof.
    intros H. unfold skip_blanks.
    eapply simk_bind; [apply cache_sim, E|]. intros [] [] _.
    eapply (simk_bindg (fun p : str * stats => fst p = []) _ (fun p p' : str * stats => grown K L p p' /\ fst p <> [])).
    - apply (simk_loop _ (fun p p' => grown K L p p')); [|apply fuel_app|split; auto].
      clear H b st. intros [b st] ? (-> & H). cbn [fst snd] in *. unfold skip_blank_body.
      destruct b as [|c b0] eqn:B0; [left; reflexivity|].
      rewrite <- B0 in *. assert (b <> []) as N by (rewrite B0; discriminate). clear B0.
      rewrite is_blank_app by exact N. destruct (is_blank b).
      + eapply simk_bind; [apply cache_sim, E|]. intros [] [] L1.
        eapply simk_bind; [apply (adv_sim t K L); [exact H|exact L1]|].
        intros p1 p1' (G & _). apply simk_ok. exact G.
      + apply simk_ok. cbn. split; [split; [reflexivity|exact H]|exact N].
    - intros [b1 st1] z B1. cbn [fst] in B1. subst b1. cbn. auto.
    - intros [b1 st1] ? ((-> & H1) & N1). cbn [fst snd] in *.
      rewrite at_is_app by (destruct b1; [congruence|cbn; lia]).
      destruct (at_is b1 0 35); [|apply simk_ok; split; [split; [reflexivity|exact H1]|exact N1]].
      apply (simk_loop _ (fun p p' => grown K L p p')); [|apply fuel_app|split; auto].
      clear H H1 N1 b1 st1 b st. intros [b st] ? (-> & H). cbn [fst snd] in *. unfold skip_line_body.
      destruct b as [|c b0] eqn:B0; [left; reflexivity|].
      rewrite <- B0 in *. assert (b <> []) as N by (rewrite B0; discriminate). clear B0.
      rewrite is_breakZ_app by (auto; eapply near_cut; exact H). destruct (is_breakZ b).
      + apply simk_ok. cbn. split; [split; [reflexivity|exact H]|exact N].
      + eapply simk_bind; [apply cache_sim, E|]. intros [] [] L1.
        eapply simk_bind; [apply (adv_sim t K L); [exact H|exact L1]|].
        intros p1 p1' (G & _). apply simk_ok. exact G.
  Qed.

  Lemma header_sim K L b st : near K L b st -> b <> [] ->
    sim (fun p p' => exists c e b1 st1 b1' st1', p = (c, e, b1, st1) /\ p' = (c, e, b1', st1') /\ scol st1 = 0 /\ scol st1' = 0 /\
        sread st1 + List.length b1 = K /\ sread st1 <= sread st1' /\ (forall d, e = Some d -> 0 < d) /\
        (b1' = b1 ++ t /\ st1' = st1 /\ near K L b1 st1 \/ b1 = [] /\ ~ noret b))
      (block_header o b st) (block_header o' (b ++ t) st).
  Proof.
    intros H N. unfold block_header.
    eapply sim_bind; [apply cache_sim, E|]. intros [] [] L1.
    eapply sim_bind; [apply simk_note, (adv_sim t K L); [exact H|exact L1]|].
    intros [b1 st1] ? (A1 & (-> & H1) & _). cbn [fst snd] in *. assert (NR1 := adv_noret _ _ _ _ A1). cbn [fst] in NR1. clear A1.
    eapply (sim_bind (fun p p' => exists c e b2 st1, p = (c, e, b2, st1) /\ p' = (c, e, b2 ++ t, st1) /\ near K L b2 st1 /\
       (forall d, e = Some d -> 0 < d) /\ (noret b1 -> noret b2))).
    { destruct (scan_headers o b1 st1) as [[[[c e] b2] st2]|x| |] eqn:SH.
      - pose proof (headers_sim K L b1 st1 H1) as S. rewrite SH in S. destruct S as [[]|(y & -> & c2 & e2 & b3 & st3 & Q & -> & H3)].
        injection Q as <- <- <- <-.
        apply sim_ok. do 4 eexists. split; [reflexivity|split; [reflexivity|split; [exact H3|split; [|exact (headers_noret _ _ _ _ _ _ _ SH)]]]].
        intros d ->. revert SH. clear. unfold scan_headers. intros SH.
        apply bind_inv in SH as ([] & _ & SH). cbv zeta in SH.
        match type of SH with context [match ?x with Some _ => 1 | None => 0 end] => destruct x as [[|d0]|] end;
        (destruct (at_is b1 0 43 || at_is b1 1 43); [|destruct (at_is b1 0 45 || at_is b1 1 45)]);
        apply bind_inv in SH as ([b3 st3] & _ & SH); injection SH; intros; subst; try discriminate; lia.
      - pose proof (headers_sim K L b1 st1 H1) as S. rewrite SH in S. destruct x; exact S.
      - pose proof (headers_sim K L b1 st1 H1) as S. rewrite SH in S. exact S.
      - exact Logic.I. }
    intros p p' (c & e & b2 & st2 & -> & -> & H2 & PE & NR2).
    eapply simk_bindg; [apply simk_note, (skip_blanks_sim K L), H2| |].
    { intros [b3 st3] z B3. cbn [fst] in B3. subst b3. rewrite (cache_nil _ E). exact Logic.I. }
    intros [b3 st3] ? (A3 & (-> & H3) & N3). cbn [fst snd] in *. assert (NR3 := skip_blanks_noret _ _ _ _ _ A3). clear A3.
    eapply sim_bind; [apply cache_sim, E|]. intros [] [] L3.
    pose proof (near_cut t _ _ _ _ H3) as C3. rewrite is_wsZ_app by assumption.
    destruct (negb (is_wsZ b3)); [apply sim_err|].
    eapply sim_bind; [apply (adv_line_sim2 t K L); assumption|].
    intros [b4 st4] [b5 st5] (Z4 & Z5 & R4 & LE & D). cbn [fst snd] in *.
    apply sim_ok. do 6 eexists. split; [reflexivity|]. split; [reflexivity|]. repeat (split; [assumption|]).
    destruct D as [((Q & G) & _)|D]; [left|right; split; [apply D|]; intros NR; apply (NR3 (NR2 (NR1 NR))); rewrite (proj2 D); left; reflexivity]. cbn [fst snd] in Q.
    split; [congruence|]. split; [congruence|exact G].
  Qed.

  Lemma detect_sim K L b st bi lines bor : near K L b st ->
    sim (fun p p' => exists i b1 st1 l1 bor1, p = (i, b1, st1, l1, bor1) /\ p' = (i, b1 ++ t, st1, l1, bor1) /\
         near K L b1 st1 /\ b1 <> [] /\ 0 < i)
      (detect_indent_level o b st bi lines bor) (detect_indent_level o' (b ++ t) st bi lines bor).
  Proof.
    intros H. unfold detect_indent_level.
    eapply (sim_bind (fun p p' => exists b1 st1 bor1 l1 i, p = (b1, st1, bor1, l1, i) /\ p' = (b1 ++ t, st1, bor1, l1, i) /\
         near K L b1 st1 /\ b1 <> [])).
    - apply (simk_loopk (fun p : str * stats * bool * nat * nat => fst (fst (fst (fst p))) = []) _
         (fun p p' : str * stats * bool * nat * nat => exists b1 st1 bor1 l1 i, p = (b1, st1, bor1, l1, i) /\ p' = (b1 ++ t, st1, bor1, l1, i) /\
         near K L b1 st1)); [| |apply fuel_app|do 5 eexists; eauto].
      2:{ intros [[[[b0 st0] bor0] l0] i0] E0. cbn [fst] in E0. subst b0. unfold detect_body. rewrite (cache_nil _ E). reflexivity. }
      clear H b st bor lines. intros p p' (b & st & bor & lines & i & -> & -> & H). unfold detect_body.
      eapply simk_bind; [apply cache_sim, E|]. intros [] [] L1.
      eapply (simk_bindg (fun p : str * stats * bool => fst (fst p) = []) _ (fun p p' : str * stats * bool =>
          exists b1 st1 bor1, p = (b1, st1, bor1) /\ p' = (b1 ++ t, st1, bor1) /\ near K L b1 st1 /\ b1 <> [])).
      + apply (simk_loop _ (fun p p' : str * stats * bool => exists b1 st1 bor1, p = (b1, st1, bor1) /\ p' = (b1 ++ t, st1, bor1) /\
           near K L b1 st1)); [|apply fuel_app|eauto 6].
        clear H L1 b st bor i. intros p p' (b & st & bor & -> & -> & H). unfold detect_space_body.
        destruct b as [|c b0] eqn:B0; [left; reflexivity|].
        rewrite <- B0 in *. assert (b <> []) as N by (rewrite B0; discriminate). clear B0.
        rewrite is_blank_app by exact N. destruct (is_blank b).
        * eapply simk_bind; [apply cache_sim, E|]. intros [] [] L1. rewrite at_is_app by lia.
          destruct (at_is b 0 9); [apply simk_err|]. cbv zeta.
          eapply simk_bind; [apply (adv_sim t K L); [exact H|exact L1]|].
          intros [b1 st1] p1' ((-> & G) & _). apply simk_ok. cbn in *. eauto 6.
        * apply simk_ok. cbn. do 3 eexists. eauto 6.
      + intros [[b1 st1] bor1] z B1. cbn [fst] in B1. subst b1. cbv zeta. rewrite (cache_nil _ E). exact Logic.I.
      + intros p p' (b1 & st1 & bor1 & -> & -> & H1 & N1). cbv zeta.
        eapply simk_bind; [apply cache_sim, E|]. intros [] [] L2.
        rewrite is_break_app by (auto; eapply near_cut; exact H1).
        destruct (negb (is_break b1)).
        * apply simk_ok. cbn. do 5 eexists. eauto 8.
        * eapply simk_bindg; [apply (adv_line_sim t K L); assumption| |].
          { intros [b2 st2] z E2. left. exact E2. }
          intros [b2 st2] ? (-> & H2). apply simk_ok. cbn in *. do 5 eexists. eauto 8.
    - intros p p' (b1 & st1 & bor1 & l1 & i & -> & -> & H1 & N1). apply sim_ok.
      do 5 eexists. split; [reflexivity|split; [reflexivity|split; [exact H1|split; [exact N1|]]]].
      destruct (Nat.ltb i (bi + 1)) eqn:X; [lia|]. apply Nat.ltb_ge in X. lia.
  Qed.

  Lemma scan_indent_sim K L b st lines indent : near K L b st -> scol st = 0 -> 0 < indent ->
    sim (fun p p' => exists b1 st1 l1, p = (b1, st1, l1) /\ p' = (b1 ++ t, st1, l1) /\ near K L b1 st1 /\ b1 <> [])
      (scan_indent o b st lines indent) (scan_indent o' (b ++ t) st lines indent).
  Proof.
    intros H S0 I0. unfold scan_indent.
    replace (Nat.leb indent (scol st)) with false by (symmetry; apply Nat.leb_gt; lia).
    eapply sim_bind; [apply cache_sim, E|]. intros [] [] L1.
    assert (b <> []) as N by (eapply long_ne; [|exact L1]; lia).
    apply (sim_loop (fun p p' : str * stats * nat => exists b1 st1 l1, p = (b1, st1, l1) /\ p' = (b1 ++ t, st1, l1) /\ near K L b1 st1 /\ b1 <> []));
      [|apply fuel_app|do 3 eexists; eauto].
    clear H L1 N S0 b st lines. intros p p' (b & st & lines & -> & -> & H & N). unfold scan_indent_body.
    pose proof (near_cut t _ _ _ _ H) as C. rewrite is_ws_app by assumption.
    destruct (Nat.ltb (scol st) indent && is_ws b).
    - assert (1 <= List.length b) as L1 by (destruct b; [congruence|cbn; lia]).
      rewrite !at_is_app, is_break_app by (auto; lia).
      eapply (simk_bindg (fun p : str * stats * nat => fst (fst p) = []) _ (fun p p' => exists b1 st1 l1, p = (b1, st1, l1) /\ p' = (b1 ++ t, st1, l1) /\ near K L b1 st1)).
      + destruct (at_is b 0 32).
        { eapply simk_bind; [apply (adv_sim t K L); [exact H|lia]|].
          intros [b1 st1] p1' ((-> & G) & _). apply simk_ok. cbn in *. eauto 6. }
        destruct (at_is b 0 9); [apply simk_err|].
        destruct (is_break b).
        { eapply simk_bindg; [apply (adv_line_sim t K L); assumption| |].
          - intros [b1 st1] z E1. left. exact E1.
          - intros [b1 st1] p1' (-> & G). apply simk_ok. cbn in *. eauto 6. }
        apply simk_ok. eauto 6.
      + intros [[b1 st1] l1] z E1. cbn [fst] in E1. subst b1. cbn [fst]. rewrite (cache_nil _ E). exact Logic.I.
      + intros p p' (b1 & st1 & l1 & -> & -> & H1). cbn [fst].
        eapply sim_bind; [apply cache_sim, E|]. intros [] [] L2.
        apply sim_ok. cbn. do 3 eexists. split; [reflexivity|split; [reflexivity|split; [exact H1|]]].
        eapply long_ne; [|exact L2]; lia.
    - apply sim_ok. cbn. do 3 eexists. eauto 6.
  Qed.

  Lemma block_line_sim K L s : near K L (f_buf s) (f_st s) ->
    simk (fun s => f_buf s = []) (fun s1 s1' => fr K L s1 s1' /\ is_break (f_buf s1) = true)
      (loop (fuel_of (f_buf s)) (block_line_body o) s)
      (loop (fuel_of (f_buf (fgrow s))) (block_line_body o') (fgrow s)).
  Proof.
    intros H. apply (simk_loop _ (fr K L)); [|apply fuel_app|split; auto].
    clear H s. intros s ? (-> & H). unfold block_line_body. cbn [f_buf CutScalar.fgrow].
    destruct (f_buf s) as [|c0 r0] eqn:B0.
    { left. cbn. auto. }
    rewrite <- B0 in *. assert (f_buf s <> []) as N by (rewrite B0; discriminate). clear B0.
    pose proof (near_cut t _ _ _ _ H) as C. rewrite is_breakZ_app by assumption.
    destruct (is_breakZ (f_buf s)) eqn:BZ.
    { apply simk_ok. cbn. split; [split; auto|]. unfold is_breakZ in BZ.
      destruct (f_buf s); [congruence|]. cbn [is_empty] in BZ. rewrite orb_false_r in BZ. exact BZ. }
    eapply simk_bind; [apply cache_sim, E|]. intros [] [] L1.
    rewrite push_head_grow by exact N.
    eapply simk_bind; [apply (f_adv_sim t K L); rewrite ?push_head_buf, ?push_head_st; auto; lia|].
    intros s2 ? FR. apply simk_ok. exact FR.
  Qed.

  Lemma chomp_sim base scr bor style start end_ lines : cut t base ->
    (bor = true -> end_ <= List.length base /\ (lines = 0 \/ end_ + 2 <= List.length base)) ->
    sim eq (scan_chomp base scr bor style start end_ lines) (scan_chomp (base ++ t) scr bor style start end_ lines).
  Proof.
    intros C H. unfold scan_chomp. cbv zeta. destruct bor; [|apply sim_refl].
    destruct (H eq_refl) as (HE & HL). clear H.
    destruct style.
    - eapply (sim_bind (fun x x' => x = x' /\ x <= List.length base)).
      + destruct lines as [|n]; [apply sim_ok; auto|]. destruct HL as [HL|HL]; [discriminate|].
        unfold slice. rewrite !boundary_full. rewrite !(proj2 (Nat.leb_le _ _)) by (rewrite ?app_length; lia).
        rewrite boundary_grow by (try apply C; lia).
        destruct (is_boundary base end_) eqn:B; [|reflexivity]. cbn [andb bind].
        rewrite !firstn_all2 by (rewrite skipn_length; lia).
        rewrite skipn_app_le by lia. rewrite width_at_app by (rewrite skipn_length; lia).
        apply sim_ok. split; [reflexivity|].
        pose proof (width_at_fits (skipn end_ base) 1 (valid_skipn _ _ (cut_valid _ _ C) B)) as W.
        rewrite skipn_length in W. lia.
      + intros x ? (<- & Lx). eapply sim_bind; [apply slice_sim; [exact C|exact Lx]|]. intros y ? <-. apply sim_ok. reflexivity.
    - eapply sim_bind; [apply slice_sim; [exact C|exact HE]|]. intros y ? <-. apply sim_ok. reflexivity.
    - destruct lines as [|[|n]].
      + eapply sim_bind; [apply slice_sim; [exact C|lia]|]. intros y ? <-. apply sim_ok. reflexivity.
      + eapply sim_bind; [apply slice_sim; [exact C|lia]|]. intros y ? <-. apply sim_ok. reflexivity.
      + eapply sim_bind; [apply slice_sim; [exact C|lia]|]. intros y ? <-. apply sim_refl.
  Qed.

  Definition bgrow (b : bstate) : bstate := mkB (fgrow (b_f b)) (b_start b) (b_end b) (b_lines b).
  Definition bok (K L : nat) (b : bstate) : Prop :=
    near K L (f_buf (b_f b)) (f_st (b_f b)) /\
    (f_bor (b_f b) = true -> b_end b <= L /\ (b_lines b = 0 \/ b_end b + 2 <= L)).

  Lemma no_bor_adv_line s s' : f_adv_line s = Ok s' -> f_bor s' = f_bor s /\ scol (f_st s') = 0 /\
    (is_break (f_buf s) = true -> List.length (f_buf s') < List.length (f_buf s)).
  Proof.
    unfold f_adv_line. intros H. apply bind_inv in H as ([b st] & A & H).
    assert (s' = mkF b st (f_scr s) (f_bor s)) as -> by congruence. cbn [f_bor f_st f_buf].
    unfold adv_line in A. apply bind_inv in A as (r & A & X). apply skip_ok in A as (-> & BD).
    assert (b = skipn (break_amt (f_buf s)) (f_buf s)) as -> by congruence.
    assert (st = supd (f_st s) (break_amt (f_buf s)) 1 0) as -> by congruence.
    split; [reflexivity|split; [reflexivity|]]. intros IB. rewrite skipn_length.
    pose proof (is_break_nonempty _ IB) as (N & P). destruct (f_buf s); [congruence|]. cbn [List.length] in *. lia.
  Qed.

  (** With an explicit indentation the text of the scalar is never reached. *)
  Lemma explicit_stops oo base st bi (fold : bool) chomp e b1 st1 : 0 < e -> scol st1 = 0 -> sread st < sread st1 ->
    (let* '(indent, buf, local, lines, borrow) := (Ok (bi + e, b1, st1, 0, true) : sres (nat * str * stats * nat * bool)) in
     let '(start, scratch) := if borrow : bool then (sread local - sread st, []) else (0, repeat 10%N lines) in
     let* b := loop (fuel_of base) (block_body oo base st indent fold) (mkB (mkF buf local scratch borrow) start 0 0) in
     let s := b_f b in
     let* text := scan_chomp base (f_scr s) (f_bor s) chomp (b_start b) (b_end b) (b_lines b) in
     Ok (TScalar text (if fold then Folded else Literal), consumed base (f_buf s), f_st s)) = Panic.
  Proof.
    intros E0 Z LT. cbn [bind]. unfold fuel_of. cbn [loop]. unfold block_body at 1. cbn [b_f f_st f_buf].
    replace (Nat.eqb (scol st1) (bi + e)) with false by (symmetry; apply Nat.eqb_neq; lia). cbn [andb bind b_f f_scr f_bor b_start b_end b_lines].
    unfold scan_chomp. assert (slice (E := scan_error) base (sread st1 - sread st) 0 = Panic) as P.
    { unfold slice. replace (Nat.leb (sread st1 - sread st) 0) with false by (symmetry; apply Nat.leb_gt; lia). reflexivity. }
    destruct chomp; cbn [Nat.add bind]; rewrite ?P; reflexivity.
  Qed.

  Lemma block_eager_sim base st bi (fold : bool) : cut t base -> base <> [] ->
    sim (fun p p' => p = p' /\ snd (fst p) <= List.length base)
      (scan_block_scalar_eager o base st bi fold) (scan_block_scalar_eager o' (base ++ t) st bi fold).
  Proof.
    intros CB NB. unfold scan_block_scalar_eager. set (L := List.length base). set (K := sread st + L).
    eapply sim_bind; [apply (header_sim K L); [apply near_self, CB|exact NB]|].
    intros p p' (chomp & ex & b1 & st1 & b1' & st1' & -> & -> & S1 & S1' & RK & RL & PE & [(-> & -> & H1)|(B1 & _)]).
    2:{ destruct ex as [e|]; [|unfold detect_indent_level; subst b1; cbn [fuel_of List.length loop]; unfold detect_body; rewrite (cache_nil _ E); exact Logic.I].
      specialize (PE _ eq_refl).
      assert (L <> 0) by (subst L; destruct base; [congruence|discriminate]).
      rewrite !explicit_stops; subst b1; cbn [List.length] in RK; try lia. reflexivity. }
    eapply (sim_bind (fun p p' => exists i b1 st1 l1 bor1, p = (i, b1, st1, l1, bor1) /\ p' = (i, b1 ++ t, st1, l1, bor1) /\
         near K L b1 st1 /\ (b1 <> [] \/ scol st1 <> i) /\ 0 < i)).
    { destruct ex as [e|].
      - apply sim_ok. specialize (PE _ eq_refl). do 5 eexists.
        split; [reflexivity|split; [reflexivity|split; [exact H1|]]]. split; lia.
      - eapply sim_impl; [apply (detect_sim K L), H1|].
        intros p p' (i & b2 & st2 & l2 & bor2 & -> & -> & H2 & N2 & I2). do 5 eexists. eauto 8. }
    intros p p' (i & b2 & st2 & l2 & bor2 & -> & -> & H2 & N2 & I2).
    assert (forall start scr, sim (fun p p' : token * nat * stats => p = p' /\ snd (fst p) <= L)
      (let* b := loop (fuel_of base) (block_body o base st i fold) (mkB (mkF b2 st2 scr bor2) start 0 0) in
       let s := b_f b in
       let* text := scan_chomp base (f_scr s) (f_bor s) chomp (b_start b) (b_end b) (b_lines b) in
       Ok (TScalar text (if fold then Folded else Literal), consumed base (f_buf s), f_st s))
      (let* b := loop (fuel_of (base ++ t)) (block_body o' (base ++ t) st i fold) (mkB (mkF (b2 ++ t) st2 scr bor2) start 0 0) in
       let s := b_f b in
       let* text := scan_chomp (base ++ t) (f_scr s) (f_bor s) chomp (b_start b) (b_end b) (b_lines b) in
       Ok (TScalar text (if fold then Folded else Literal), consumed (base ++ t) (f_buf s), f_st s))) as Go.
    2:{ destruct bor2; apply Go. }
    intros start scr.
    eapply (sim_bind (fun b b' => b' = bgrow b /\ bok K L b)).
    - apply (sim_loop (fun b b' => b' = bgrow b /\ bok K L b /\ (f_buf (b_f b) <> [] \/ scol (f_st (b_f b)) <> i)));
        [|apply fuel_app|].
      2:{ split; [reflexivity|split; [split; [exact H2|cbn; lia]|exact N2]]. }
      clear H1 H2 N2 S1 S1' RK RL b1 st1 b2 st2 bor2 l2 PE scr start ex.
      intros [s start end_ lines] ? (-> & (H & BE) & NE). unfold block_body, bgrow. cbn [b_f b_start b_end b_lines f_buf f_st f_bor CutScalar.fgrow] in *.
      pose proof (near_cut t _ _ _ _ H) as C.
      destruct (Nat.eqb (scol (f_st s)) i) eqn:SI.
      2:{ apply sim_ok. cbn. split; [reflexivity|split; assumption]. }
      apply Nat.eqb_eq in SI. destruct NE as [N|NE]; [|congruence].
      rewrite is_empty_app by exact N. destruct (is_empty (f_buf s)) eqn:EM; [destruct (f_buf s); [congruence|discriminate EM]|].
      cbn [negb andb].
      eapply (sim_bind (fun r r' => r' = fgrow r /\ f_buf r = f_buf s /\ f_st r = f_st s)).
      { destruct (f_bor s && Nat.ltb 0 lines) eqn:B; [|apply sim_ok; auto].
        apply andb_true_iff in B as (B & _). destruct (BE B) as (BE1 & _).
        eapply sim_bind; [apply slice_sim; [exact CB|exact BE1]|]. intros x ? <-. apply sim_ok. auto. }
      intros s1 ? (-> & B1 & S1).
      set (f := fun s : fstate => if fold then match lines with 0 => s | 1 => f_push s [32%N] | S (S _ as n) => f_push s (repeat 10%N n) end
                      else f_push s (repeat 10%N lines)).
      change (if fold then match lines with 0 => fgrow s1 | 1 => f_push (fgrow s1) [32%N] | S (S _ as n) => f_push (fgrow s1) (repeat 10%N n) end
                      else f_push (fgrow s1) (repeat 10%N lines)) with (f (fgrow s1)).
      change (if fold then match lines with 0 => s1 | 1 => f_push s1 [32%N] | S (S _ as n) => f_push s1 (repeat 10%N n) end
                      else f_push s1 (repeat 10%N lines)) with (f s1).
      assert (f (fgrow s1) = fgrow (f s1)) as -> by (unfold f; destruct fold; [destruct lines as [|[|n]]|]; reflexivity).
      assert (f_buf (f s1) = f_buf s) as B2 by (unfold f; destruct fold; [destruct lines as [|[|n]]|]; exact B1).
      assert (f_st (f s1) = f_st s) as S2 by (unfold f; destruct fold; [destruct lines as [|[|n]]|]; exact S1).
      generalize dependent (f s1). clear f. intros s2 B2 S2. cbv zeta.
      change (f_buf (fgrow s2)) with (f_buf s2 ++ t) at 1. change (f_st (fgrow s2)) with (f_st s2).
      change (f_bor (fgrow s2)) with (f_bor s2).
      eapply sim_bind; [apply cache_sim, E|]. intros [] [] L1.
      eapply simk_bindg; [apply (block_line_sim K L); rewrite B2, S2; exact H| |].
      { intros s3 z B3. cbv zeta. rewrite B3, (cache_nil _ E). exact Logic.I. }
      intros s3 ? ((-> & H3) & BK). cbn [f_bor f_st f_scr CutScalar.fgrow].
      change (f_buf (fgrow s3)) with (f_buf s3 ++ t).
      eapply sim_bind; [apply cache_sim, E|]. intros [] [] L3.
      assert (f_buf s3 <> []) as N3 by (eapply long_ne; [|exact L3]; lia).
      pose proof (near_cut t _ _ _ _ H3) as C3. rewrite is_break_app, BK by assumption.
      eapply (simk_bindg (fun p : fstate * nat => f_buf (fst p) = [] /\ scol (f_st (fst p)) = 0) _ (fun p p' : fstate * nat => exists s4, p = (s4, 1) /\ p' = (fgrow s4, 1) /\ near K (List.length (f_buf s3) - 1) (f_buf s4) (f_st s4)
                 /\ scol (f_st s4) = 0 /\ f_bor s4 = f_bor s3)).
      { destruct (f_adv_line s3) as [s4|e| |] eqn:A4.
        - pose proof (f_adv_line_sim t K L s3 H3 N3) as S4. rewrite A4 in S4.
          destruct S4 as [E4|(y & -> & -> & H4)].
          { left. cbn [fst]. split; [exact E4|]. apply no_bor_adv_line in A4. apply A4. }
          apply simk_ok. exists s4.
          apply no_bor_adv_line in A4 as (X1 & X2 & X3). specialize (X3 BK).
          split; [reflexivity|split; [reflexivity|split; [|split; assumption]]].
          destruct H4 as (C4 & L4 & R4). split; [exact C4|lia].
        - pose proof (f_adv_line_sim t K L s3 H3 N3) as S4. rewrite A4 in S4. cbn [bind].
          destruct e; cbn in S4; try rewrite S4; exact Logic.I || reflexivity.
        - pose proof (f_adv_line_sim t K L s3 H3 N3) as S4. rewrite A4 in S4. cbn in S4. rewrite S4. reflexivity.
        - exact Logic.I. }
      { intros [s4 n4] z (E4 & Z4). cbn [fst] in E4, Z4. rewrite E4. unfold scan_indent. rewrite Z4.
        replace (Nat.leb i 0) with false by (symmetry; apply Nat.leb_gt; lia). rewrite (cache_nil _ E). exact Logic.I. }
      intros p p' (s4 & -> & -> & H4 & SC4 & BO4).
      cbn [f_buf f_st CutScalar.fgrow].
      eapply sim_bind; [apply (scan_indent_sim K (List.length (f_buf s3) - 1)); [exact H4|exact SC4|exact I2]|].
      intros p p' (b5 & st5 & l5 & -> & -> & H5 & N5). apply sim_ok. cbn [steps].
      assert (1 <= List.length b5) as L5 by (destruct b5; [congruence|cbn; lia]).
      destruct H5 as (C5 & LL5 & R5). destruct H3 as (_ & LL3 & R3).
      split; [reflexivity|].
      split; [|left; exact N5].
      split; [split; [exact C5|cbn [b_f f_buf f_st]; split; [lia|exact R5]]|].
      cbn [b_f b_end b_lines f_bor]. rewrite BO4. intros BT. rewrite BT. subst K. lia.
    - intros b ? (-> & (HB & BE)). cbv zeta. unfold bgrow. cbn [b_f b_start b_end b_lines f_buf f_scr f_bor f_st CutScalar.fgrow].
      eapply sim_bind; [apply chomp_sim; [exact CB|exact BE]|]. intros x ? <-.
      apply sim_ok. rewrite consumed_grow. cbn [fst snd]. unfold consumed. split; [reflexivity|subst L; lia].
  Qed.
  (** ** Deferred block scalars *)
  Lemma block_lazy_sim base st bi (fold : bool) : cut t base -> base <> [] -> noret base ->
    sim (fun p p' => exists x n st1, p = (DBlock o x st bi fold, n, st1) /\ p' = (DBlock o' x st bi fold, n, st1) /\ n <= List.length base)
      (scan_block_scalar_lazy o base st bi fold) (scan_block_scalar_lazy o' (base ++ t) st bi fold).
  Proof.
    intros CB NB NR. unfold scan_block_scalar_lazy. set (L := List.length base). set (K := sread st + L).
    eapply sim_bind; [apply (header_sim K L); [apply near_self, CB|exact NB]|].
    intros p p' (chomp & ex & b1 & st1 & b1' & st1' & -> & -> & S1 & S1' & RK & RL & PE & [(-> & -> & H1)|(_ & B1)]); [|contradiction].
    eapply (sim_bind (fun p p' => exists i b1 st1, p = (i, b1, st1) /\ p' = (i, b1 ++ t, st1) /\
         near K L b1 st1 /\ (b1 <> [] \/ scol st1 <> i) /\ 0 < i)).
    { destruct ex as [e|].
      - apply sim_ok. specialize (PE _ eq_refl). do 3 eexists.
        split; [reflexivity|split; [reflexivity|split; [exact H1|]]]. split; lia.
      - eapply sim_bind; [apply (detect_sim K L), H1|].
        intros p p' (i & b2 & st2 & l2 & bor2 & -> & -> & H2 & N2 & I2). apply sim_ok. do 3 eexists. eauto 8. }
    intros p p' (i & b2 & st2 & -> & -> & H2 & N2 & I2).
    eapply (sim_bind (fun p p' : str * stats => grown K L p p')).
    - apply (sim_loop (fun p p' : str * stats => grown K L p p' /\ (fst p <> [] \/ scol (snd p) <> i)));
        [|apply fuel_app|split; [split; [reflexivity|exact H2]|exact N2]].
      clear H1 H2 N2 S1 S1' RK RL b1 st1 b2 st2 PE ex.
      intros [b s1] ? ((-> & H) & NE). unfold block_lazy_body. cbn [fst snd] in *.
      pose proof (near_cut t _ _ _ _ H) as C.
      destruct (Nat.eqb (scol s1) i) eqn:SI.
      2:{ apply sim_ok. cbn. split; [reflexivity|exact H]. }
      apply Nat.eqb_eq in SI. destruct NE as [N|NE]; [|congruence].
      rewrite is_empty_app by exact N. destruct (is_empty b) eqn:EM; [destruct b; [congruence|discriminate EM]|].
      cbn [negb andb].
      eapply sim_bind; [apply cache_sim, E|]. intros [] [] L1.
      eapply simk_bindg; [apply (block_line_sim K L (mkF b s1 [] true)); exact H| |].
      { intros s3 z B3. rewrite B3, (cache_nil _ E). exact Logic.I. }
      intros s3 ? ((-> & H3) & BK). change (f_buf (fgrow s3)) with (f_buf s3 ++ t).
      eapply sim_bind; [apply cache_sim, E|]. intros [] [] L3.
      assert (f_buf s3 <> []) as N3 by (eapply long_ne; [|exact L3]; lia).
      pose proof (near_cut t _ _ _ _ H3) as C3. rewrite is_break_app, BK by assumption.
      eapply (simk_bindg (fun p : fstate => f_buf p = [] /\ scol (f_st p) = 0) _ (fun p p' : fstate => p' = fgrow p /\ near K L (f_buf p) (f_st p) /\ scol (f_st p) = 0)).
      { destruct (f_adv_line s3) as [s4|e| |] eqn:A4.
        - pose proof (f_adv_line_sim t K L s3 H3 N3) as S4. rewrite A4 in S4.
          destruct S4 as [E4|(y & -> & -> & H4)].
          { left. split; [exact E4|]. apply no_bor_adv_line in A4. apply A4. }
          apply simk_ok. split; [reflexivity|]. split; [exact H4|]. apply no_bor_adv_line in A4. apply A4.
        - pose proof (f_adv_line_sim t K L s3 H3 N3) as S4. rewrite A4 in S4.
          destruct e; cbn in S4; try rewrite S4; exact Logic.I || reflexivity.
        - pose proof (f_adv_line_sim t K L s3 H3 N3) as S4. rewrite A4 in S4. cbn in S4. rewrite S4. reflexivity.
        - exact Logic.I. }
      { intros s4 z (E4 & Z4). rewrite E4. unfold scan_indent. rewrite Z4.
        replace (Nat.leb i 0) with false by (symmetry; apply Nat.leb_gt; lia). rewrite (cache_nil _ E). exact Logic.I. }
      intros s4 ? (-> & H4 & SC4). cbn [f_buf f_st CutScalar.fgrow].
      eapply sim_bind; [apply (scan_indent_sim K L); [exact H4|exact SC4|exact I2]|].
      intros p p' (b5 & st5 & l5 & -> & -> & H5 & N5). apply sim_ok. cbn [steps].
      split; [split; [reflexivity|exact H5]|left; exact N5].
    - intros [b3 st3] ? (-> & H3). cbn [fst snd] in *. rewrite consumed_grow.
      assert (consumed base b3 <= List.length base) as LC by (unfold consumed; lia).
      eapply sim_bind; [apply slice_sim; [exact CB|exact LC]|]. intros x ? <-. apply sim_ok.
      do 3 eexists. split; [reflexivity|]. split; [reflexivity|exact LC].
  Qed.
End Block.
