(** Block scalars: a lazy scan reads what an eager one reads. *)
From Verif Require Import QuotedFacts Loops.
From Verif Require Export NarrowPlain.
From Coq Require Import Lia ZifyBool ZifyN ZifyNat.
Open Scope nat_scope.

(** Two loops in step, with the same fuel. *)
Lemma loop_step {S S' R R' E : Type} (body : S -> res E (step S R)) (body' : S' -> res E (step S' R'))
  (P : S -> S' -> Prop) (Q : R -> R' -> Prop) :
  (forall s s' s1, P s s' -> body s = Ok (Next s1) -> exists s1', body' s' = Ok (Next s1') /\ P s1 s1') ->
  (forall s s' r, P s s' -> body s = Ok (Done r) -> exists r', body' s' = Ok (Done r') /\ Q r r') ->
  forall fuel s s' r, P s s' -> loop fuel body s = Ok r -> exists r', loop fuel body' s' = Ok r' /\ Q r r'.
Proof.
  intros HN HD. induction fuel as [|fuel IH]; intros s s' r HP L; cbn [loop] in *; [discriminate|].
  destruct (body s) as [[s1|r1]| | |] eqn:B; try discriminate.
  - destruct (HN _ _ _ HP B) as (s1' & -> & P1). apply (IH _ _ _ P1 L).
  - destruct (HD _ _ _ HP B) as (r1' & -> & Q1). assert (r1 = r) as -> by congruence. exists r1'. split; [reflexivity|exact Q1].
Qed.

Section Follow.
  Variables (o ol : flags).
  Hypothesis OX : extendable o = false.
  Hypothesis LX : extendable ol = false.
  Definition same_f (s s' : fstate) : Prop := f_buf s' = f_buf s /\ f_st s' = f_st s.

  Lemma line_follow fuel s s' r : same_f s s' -> loop fuel (block_line_body o) s = Ok r ->
    exists r', loop fuel (block_line_body ol) s' = Ok r' /\ same_f r r'.
  Proof.
    apply (loop_step (block_line_body o) (block_line_body ol) same_f same_f).
    - intros a a' a1 (B & T) H. unfold block_line_body in *. rewrite B. destruct (is_breakZ (f_buf a)); [discriminate|].
      rewrite cache_static in * by assumption. cbn [bind] in *. apply bind_inv in H as (x & A & H). assert (x = a1) as -> by congruence.
      apply f_adv_st in A. destruct (push_head_st a) as [E1 E2]. rewrite E1, E2 in A. destruct (push_head_st a') as [F1 F2].
      unfold f_adv. rewrite F1, F2, B, T, A. cbn [bind]. eexists. split; [reflexivity|]. split; reflexivity.
    - intros a a' a1 (B & T) H. unfold block_line_body in *. rewrite B. destruct (is_breakZ (f_buf a)).
      + assert (a1 = a) as -> by congruence. exists a'. split; [reflexivity|split; assumption].
      + exfalso. rewrite cache_static in H by assumption. cbn [bind] in H. apply bind_inv in H as (x & _ & H). discriminate.
  Qed.

  Definition same_i (s s' : str * stats * nat) : Prop := fst s' = fst s.
  Lemma indent_follow buf st l l' indent b1 st1 l1 : scan_indent o buf st l indent = Ok (b1, st1, l1) ->
    exists l1', scan_indent ol buf st l' indent = Ok (b1, st1, l1').
  Proof.
    unfold scan_indent. destruct (Nat.leb indent (scol st)).
    { intros E. exists l'. congruence. }
    rewrite !cache_static by assumption. cbn [bind]. intros L.
    destruct (loop_step (scan_indent_body o indent) (scan_indent_body ol indent) same_i same_i) with (fuel := fuel_of buf)
      (s := (buf, st, l)) (s' := (buf, st, l')) (r := (b1, st1, l1)) as ([[b2 st2] l2] & E & S).
    - intros [[b s] n] [[b' s'] n'] [[b2 s2] n2] S H. unfold same_i in *. cbn [fst] in S.
      assert (b' = b) as -> by congruence. assert (s' = s) as -> by congruence. unfold scan_indent_body in *.
      destruct (_ && _); [|discriminate]. 
      destruct (at_is b 0 32).
      { destruct (adv b s 1) as [[x y]| | |]; cbn [bind] in *; try discriminate. rewrite !cache_static in * by assumption. cbn [bind] in *.
        eexists. split; [reflexivity|]. cbn [fst]. congruence. }
      destruct (at_is b 0 9); [discriminate|]. destruct (is_break b).
      { destruct (adv_line b s) as [[x y]| | |]; cbn [bind] in *; try discriminate. rewrite !cache_static in * by assumption. cbn [bind] in *.
        eexists. split; [reflexivity|]. cbn [fst]. congruence. }
      cbn [bind] in *. rewrite !cache_static in * by assumption. cbn [bind] in *. eexists. split; [reflexivity|]. cbn [fst]. congruence.
    - intros [[b s] n] [[b' s'] n'] r S H. unfold same_i in *. cbn [fst] in S.
      assert (b' = b) as -> by congruence. assert (s' = s) as -> by congruence. unfold scan_indent_body in *.
      destruct (_ && _).
      { exfalso. apply bind_inv in H as (x & _ & H). apply bind_inv in H as (y & _ & H). discriminate. }
      eexists. split; [reflexivity|]. assert (r = (b, s, n)) as -> by congruence. reflexivity.
    - reflexivity.
    - exact L.
    - unfold same_i in S. cbn [fst] in S. assert (b2 = b1) as -> by congruence. assert (st2 = st1) as -> by congruence.
      exists l2. exact E.
  Qed.

  Lemma block_follow fuel base st0 indent fold b r buf st : buf = f_buf (b_f b) -> st = f_st (b_f b) ->
    loop fuel (block_body o base st0 indent fold) b = Ok r ->
    loop fuel (block_lazy_body ol indent) (buf, st) = Ok (f_buf (b_f r), f_st (b_f r)).
  Proof.
    intros EB ES L.
    destruct (loop_step (block_body o base st0 indent fold) (block_lazy_body ol indent)
      (fun b s => s = (f_buf (b_f b), f_st (b_f b))) (fun b s => s = (f_buf (b_f b), f_st (b_f b)))) with (fuel := fuel) (s := b) (s' := (buf, st)) (r := r)
      as (r' & E & ->); [| |congruence|exact L|exact E].
    - intros a a' a1 -> H. unfold block_body in H. unfold block_lazy_body. destruct (_ && _); [|discriminate].
      apply bind_inv in H as (s1 & H1 & H). rewrite cache_static in H by assumption. cbn [bind] in H.
      set (s2 := if fold then _ else _) in H.
      assert (F1 : f_buf s2 = f_buf (b_f a) /\ f_st s2 = f_st (b_f a)).
      { assert (f_buf s1 = f_buf (b_f a) /\ f_st s1 = f_st (b_f a)) as [X Y].
        { destruct (_ && _); [|assert (s1 = b_f a) as -> by congruence; auto].
          apply bind_inv in H1 as (t & _ & H1). match type of H1 with Ok ?x = _ => assert (s1 = x) as -> by congruence end. auto. }
        rewrite <- X, <- Y. subst s2. destruct fold; [destruct (b_lines a) as [|[|]]|]; auto. }
      clearbody s2. clear H1. destruct F1 as [F1 F2].
      rewrite F1 in H at 1.
      apply bind_inv in H as (s3 & H3 & H). rewrite cache_static in H by assumption. cbn [bind] in H.
      destruct (line_follow _ s2 (mkF (f_buf (b_f a)) (f_st (b_f a)) [] true) _ (conj (eq_sym F1) (eq_sym F2)) H3) as (s3' & H3' & B3 & T3).
      rewrite !cache_static by assumption. cbn [bind]. rewrite H3'. cbn [bind]. rewrite cache_static by assumption. cbn [bind]. rewrite B3.
      apply bind_inv in H as ([s4 l4] & H4 & H).
      match goal with |- context [bind ?x _] => match x with (if _ then _ else _) => set (y := x) end end.
      assert (X : exists s4', y = Ok s4' /\ same_f s4 s4').
      { subst y. destruct (is_break (f_buf s3)).
        - apply bind_inv in H4 as (x & A & H4). assert (x = s4) as -> by congruence. apply f_adv_line_st in A. unfold f_adv_line.
          rewrite B3, T3, A. cbn [bind]. eexists. split; [reflexivity|]. split; reflexivity.
        - assert (s4 = s3) as -> by congruence. exists s3'. split; [reflexivity|]. split; assumption. }
      destruct X as (s4' & X & (B4 & T4)). rewrite X. cbn [bind]. clear y X. rewrite B4, T4.
      apply bind_inv in H as ([[b5 st5] l5] & H5 & H). destruct (indent_follow _ _ _ 0 _ _ _ _ H5) as (l5' & ->). cbn [bind].
      eexists. split; [reflexivity|]. match type of H with Ok (Next ?x) = _ => assert (a1 = x) as -> by congruence end. reflexivity.
    - intros a a' r0 -> H. unfold block_body in H. unfold block_lazy_body. destruct (_ && _).
      { exfalso. apply bind_inv in H as (s1 & H1 & H). apply bind_inv in H as (? & _ & H).
        apply bind_inv in H as (? & _ & H). apply bind_inv in H as (? & _ & H). apply bind_inv in H as ([? ?] & _ & H).
        apply bind_inv in H as ([[? ?] ?] & _ & H). discriminate. }
      assert (r0 = a) as -> by congruence. eexists. split; reflexivity.
  Qed.
End Follow.

(** The detection of the indent level reads the same whether or not the text can be
    borrowed. *)
Definition same_d (s s' : str * stats * bool) : Prop := fst s' = fst s.
Lemma detect_space_follow o fuel l s s' r : same_d s s' -> loop fuel (detect_space_body o l) s = Ok r ->
  exists r', loop fuel (detect_space_body o l) s' = Ok r' /\ same_d r r'.
Proof.
  apply (loop_step (detect_space_body o l) (detect_space_body o l) same_d same_d).
  - intros [[b st] bo] [[b' st'] bo'] s1 S H. unfold same_d in S. cbn [fst] in S. assert (b' = b) as -> by congruence.
    assert (st' = st) as -> by congruence. unfold detect_space_body in *. destruct (is_blank b); [|discriminate].
    destruct (cache o b 1); cbn [bind] in *; try discriminate. destruct (at_is b 0 9); [discriminate|].
    destruct (adv b st 1) as [[x y]| | |]; cbn [bind] in *; try discriminate.
    eexists. split; [reflexivity|]. unfold same_d. match type of H with Ok (Next ?x) = _ => assert (s1 = x) as -> by congruence end. reflexivity.
  - intros [[b st] bo] [[b' st'] bo'] r1 S H. unfold same_d in S. cbn [fst] in S. assert (b' = b) as -> by congruence.
    assert (st' = st) as -> by congruence. unfold detect_space_body in *. destruct (is_blank b).
    + exfalso. apply bind_inv in H as (? & _ & H). destruct (at_is b 0 9); [discriminate|]. apply bind_inv in H as ([? ?] & _ & H). discriminate.
    + eexists. split; [reflexivity|]. match type of H with Ok (Done ?x) = _ => assert (r1 = x) as -> by congruence end. reflexivity.
Qed.
Definition same_l (s s' : str * stats * bool * nat * nat) : Prop :=
  fst (fst (fst s')) = fst (fst (fst s)) /\ snd (fst s') = snd (fst s) /\ snd s' = snd s.
Lemma detect_follow o buf st bi l bo bo' i b1 st1 l1 bo1 : detect_indent_level o buf st bi l bo = Ok (i, b1, st1, l1, bo1) ->
  exists bo1', detect_indent_level o buf st bi l bo' = Ok (i, b1, st1, l1, bo1').
Proof.
  unfold detect_indent_level. intros H. apply bind_inv in H as ([[[[b2 st2] bo2] l2] i2] & L & H).
  destruct (loop_step (detect_body o) (detect_body o) same_l same_l) with (fuel := fuel_of buf) (s := (buf, st, bo, l, 0))
    (s' := (buf, st, bo', l, 0)) (r := (b2, st2, bo2, l2, i2)) as ([[[[b3 st3] bo3] l3] i3] & E & S).
  - intros [[[[b s] c] n] k] [[[[b' s'] c'] n'] k'] s1 (S1 & S2 & S3) H1. cbn [fst snd] in *.
    assert (b' = b) as -> by congruence. assert (s' = s) as -> by congruence. subst n' k'. unfold detect_body in *.
    destruct (cache o b 1); cbn [bind] in *; try discriminate. apply bind_inv in H1 as ([[b4 s4] c4] & L4 & H1).
    destruct (detect_space_follow o _ n (b, s, c) (b, s, c') _ eq_refl L4) as ([[b5 s5] c5] & -> & S5). unfold same_d in S5. cbn [fst] in S5.
    assert (b5 = b4) as -> by congruence. assert (s5 = s4) as -> by congruence. cbn [bind].
    destruct (cache o b4 1); cbn [bind] in *; try discriminate. destruct (negb (is_break b4)); [discriminate|].
    destruct (adv_line b4 s4) as [[x y]| | |]; cbn [bind] in *; try discriminate.
    eexists. split; [reflexivity|]. match type of H1 with Ok (Next ?x) = _ => assert (s1 = x) as -> by congruence end. repeat split.
  - intros [[[[b s] c] n] k] [[[[b' s'] c'] n'] k'] s1 (S1 & S2 & S3) H1. cbn [fst snd] in *.
    assert (b' = b) as -> by congruence. assert (s' = s) as -> by congruence. subst n' k'. unfold detect_body in *.
    destruct (cache o b 1); cbn [bind] in *; try discriminate. apply bind_inv in H1 as ([[b4 s4] c4] & L4 & H1).
    destruct (detect_space_follow o _ n (b, s, c) (b, s, c') _ eq_refl L4) as ([[b5 s5] c5] & -> & S5). unfold same_d in S5. cbn [fst] in S5.
    assert (b5 = b4) as -> by congruence. assert (s5 = s4) as -> by congruence. cbn [bind].
    destruct (cache o b4 1); cbn [bind] in *; try discriminate. destruct (negb (is_break b4)).
    + eexists. split; [reflexivity|]. match type of H1 with Ok (Done ?x) = _ => assert (s1 = x) as -> by congruence end. repeat split.
    + exfalso. apply bind_inv in H1 as ([? ?] & _ & H1). discriminate.
  - repeat split.
  - exact L.
  - rewrite E. cbn [bind]. destruct S as (S1 & S2 & S3). cbn [fst snd] in *. exists bo3.
    assert (b3 = b2) as -> by congruence. assert (st3 = st2) as -> by congruence. subst l3 i3.
    assert (i = (if Nat.ltb i2 (bi + 1) then bi + 1 else i2)) as -> by congruence.
    assert (b1 = b2) as -> by congruence. assert (st1 = st2) as -> by congruence. assert (l1 = l2) as -> by congruence. reflexivity.
Qed.

Notation EG := (mkFlags false false).
Notation LZ := (mkFlags false true).
Lemma block_lazy base st i fold t n st' : ascii base -> scan_block_scalar_eager EG base st i fold = Ok (t, n, st') ->
  scan_block_scalar_lazy LZ base st i fold = Ok (DBlock LZ (firstn n base) st i fold, n, st').
Proof.
  intros A E. unfold scan_block_scalar_eager in E. unfold scan_block_scalar_lazy.
  change (block_header LZ base st) with (block_header EG base st).
  destruct (block_header EG base st) as [[[[ch ex] buf] local]| | |]; cbn [bind] in *; try discriminate.
  assert (X : exists ind b1 s1 l1 bo1, 
    match ex with Some e => Ok (i + e, buf, local, 0, true) | None => detect_indent_level EG buf local i 0 true end = Ok (ind, b1, s1, l1, bo1) /\
    match ex with
    | Some e => Ok (i + e, buf, local)
    | None => let* '(ind, b, s, _, _) := detect_indent_level LZ buf local i 0 false in Ok (ind, b, s)
    end = Ok (ind, b1, s1)).
  { destruct ex as [e|]; [do 5 eexists; split; reflexivity|].
    apply bind_inv in E as ([[[[ind b1] s1] l1] bo1] & D & _). exists ind, b1, s1, l1, bo1. split; [exact D|].
    destruct (detect_follow _ _ _ _ _ _ false _ _ _ _ _ D) as (bo2 & D2).
    change (detect_indent_level LZ) with (detect_indent_level EG). rewrite D2. reflexivity. }
  destruct X as (ind & b1 & s1 & l1 & bo1 & X1 & X2). rewrite X1 in E. rewrite X2. cbn [bind] in *.
  set (p := if bo1 then _ else _) in E. destruct p as [start scratch].
  apply bind_inv in E as (b & L & E). apply bind_inv in E as (txt & _ & E).
  pose proof L as L'. eapply (block_follow EG LZ eq_refl eq_refl _ _ _ _ _ _ _ b1 s1) in L'; [|reflexivity|reflexivity].
  rewrite L'. cbn [bind].
  assert (n = consumed base (f_buf (b_f b))) as -> by congruence. assert (st' = f_st (b_f b)) as -> by congruence.
  rewrite slice_ascii; [|exact A|apply Nat.le_0_l|unfold consumed; lia]. cbn [bind skipn]. rewrite Nat.sub_0_r. reflexivity.
Qed.
