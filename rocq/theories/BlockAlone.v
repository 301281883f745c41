(** A text that is one block scalar. *)
From Verif Require Export BlockLines.
From Verif Require Import SpecContent Utf8Facts History ContentFacts NameFacts BlockFacts SortFacts.
From Coq Require Import Lia ZifyBool ZifyN ZifyNat.
Open Scope nat_scope.

(** ** The value is determined *)
Lemma line_det s w r : line s w r -> forall w' r', line s w' r' -> w' = w /\ r' = r.
Proof.
  induction 1 as [s E|c s w r SC B L IH]; intros w' r' L'.
  - inversion L' as [|c s' w1 r1 SC' B' L1 E1]; subst; [auto|]. exfalso. destruct E as [E|E]; [|congruence].
    destruct (encode_nonempty c) as (b & t & X). rewrite X in E. discriminate.
  - inversion L' as [? E|c' s' w1 r1 SC' B' L1 E1]; subst.
    + exfalso. destruct E as [E|E]; [|congruence]. destruct (encode_nonempty c) as (b & t & X). rewrite X in E. discriminate.
    + destruct (encode_app_inj _ _ _ _ SC' SC E1) as [-> ->]. destruct (IH _ _ L1) as [-> ->]. auto.
Qed.
Lemma blank_no_break c s : blank c -> ~ (c :: s = [] \/ break_len (c :: s) <> 0).
Proof. intros [-> | ->] [X|X]; try discriminate; apply X; destruct s as [|? [|? ?]]; reflexivity. Qed.
Lemma hash_no_break s : ~ (35%N :: s = [] \/ break_len (35%N :: s) <> 0).
Proof. intros [X|X]; try discriminate; apply X; destruct s as [|? [|? ?]]; reflexivity. Qed.
Lemma header_rest_det s r : header_rest s r -> forall r', header_rest s r' -> r' = r.
Proof.
  induction 1 as [c s r B H IH|s w r L|s E]; intros r' H'.
  - inversion H' as [? ? ? B' H1|? ? ? L'|? E']; subst; [auto|exfalso; destruct B; discriminate|exfalso; exact (blank_no_break _ _ B E')].
  - inversion H' as [? ? ? B' H1|? ? ? L'|? E']; subst; [exfalso; destruct B'; discriminate| |exfalso; exact (hash_no_break _ E')].
    destruct (line_det _ _ _ L _ _ L') as [_ ->]. reflexivity.
  - inversion H' as [? ? ? B' H1|? ? ? L'|? E']; subst; [exfalso; exact (blank_no_break _ _ B' E)|exfalso; exact (hash_no_break _ E)|reflexivity].
Qed.
Lemma space_no_break s : break_len (32%N :: s) = 0.
Proof. destruct s as [|? [|? ?]]; reflexivity. Qed.
Lemma leading_det k m n s k' m' r : leading k m n s k' m' r -> forall n2 k2 m2 r2, leading k m n2 s k2 m2 r2 ->
  n2 = n /\ k2 = k' /\ m2 = m' /\ r2 = r.
Proof.
  induction 1 as [k m s W|k m n s k' m' r H IH|k m n s k' m' r B H IH]; intros n2 k2 m2 r2 L2.
  - inversion L2; subst; [auto|..]; exfalso; apply W.
    + left. eexists _, _. split; [reflexivity|left; reflexivity].
    + right. assumption.
  - inversion L2 as [? ? ? W2|? ? ? ? ? ? ? H2|? ? ? ? ? ? ? B2 H2]; subst; [|auto|rewrite space_no_break in B2; congruence].
    exfalso. apply W2. left. eexists _, _. split; [reflexivity|left; reflexivity].
  - inversion L2 as [? ? ? W2|? ? ? ? ? ? ? H2|? ? ? ? ? ? ? B2 H2]; subst; [|rewrite space_no_break in B; congruence|].
    + exfalso. apply W2. right. assumption.
    + destruct (IH _ _ _ _ H2) as (-> & -> & -> & ->). auto.
Qed.
Lemma margin_det indent k n s k' r : margin indent k n s k' r -> forall n2 k2 r2, margin indent k n2 s k2 r2 ->
  n2 = n /\ k2 = k' /\ r2 = r.
Proof.
  induction 1 as [k s H|k s H W|k n s k' r H M IH|k n s k' r H B M IH]; intros n2 k2 r2 M2.
  - inversion M2; subst; auto; lia.
  - inversion M2 as [| |? ? ? ? ? H2 M2'|? ? ? ? ? H2 B2 M2']; subst; auto; exfalso; apply W; [left; eexists _, _; split; [reflexivity|left; reflexivity]|right; assumption].
  - inversion M2 as [| ? ? ? W2|? ? ? ? ? H2 M2'|? ? ? ? ? H2 B2 M2']; subst; auto; try lia.
    + exfalso. apply W2. left. eexists _, _. split; [reflexivity|left; reflexivity].
    + rewrite space_no_break in B2. congruence.
  - inversion M2 as [| ? ? ? W2|? ? ? ? ? H2 M2'|? ? ? ? ? H2 B2 M2']; subst; auto; try lia.
    + exfalso. apply W2. right. assumption.
    + rewrite space_no_break in B. congruence.
    + destruct (IH _ _ _ M2') as (-> & -> & ->). auto.
Qed.
Lemma text_lines_det fold indent s v n r : text_lines fold indent s v n r -> forall v' n' r', text_lines fold indent s v' n' r' ->
  v' = v /\ n' = n /\ r' = r.
Proof.
  induction 1 as [s w L|s w s1 n k r L BL M E|s w s1 n r v n' r' L BL M NN TL IH]; intros v2 n2 r2 T2;
    inversion T2 as [? ? L2|? ? ? ? ? ? L2 BL2 M2 E2|? ? ? ? ? ? ? ? L2 BL2 M2 NN2 TL2]; subst;
    destruct (line_det _ _ _ L _ _ L2) as [? ?]; subst; try (exfalso; apply BL; reflexivity); try (exfalso; apply BL2; reflexivity).
  - auto.
  - destruct (margin_det _ _ _ _ _ _ M _ _ _ M2) as (-> & _ & ->). auto.
  - exfalso. destruct (margin_det _ _ _ _ _ _ M _ _ _ M2) as (-> & -> & ->). destruct E; congruence.
  - exfalso. destruct (margin_det _ _ _ _ _ _ M _ _ _ M2) as (-> & -> & ->). destruct E2; congruence.
  - destruct (margin_det _ _ _ _ _ _ M _ _ _ M2) as (-> & _ & ->). destruct (IH _ _ _ TL2) as (-> & -> & ->). auto.
Qed.
Lemma headers_det h s r h' s' r' : In h headers -> In h' headers -> header_rest s r -> header_rest s' r' -> h ++ s = h' ++ s' -> h = h' /\ s = s'.
Proof.
  intros I I' H H' E. assert (X : forall c x y, header_rest (c :: x) y -> c <> 43%N /\ c <> 45%N /\ c <> 48%N).
  { intros c x y K. apply rest_head in K. lia. }
  unfold headers in *. repeat (destruct I as [<- |I]); try contradiction; repeat (destruct I' as [<- |I']); try contradiction; cbn [app] in E;
  first [ split; [reflexivity|congruence]
        | exfalso; first [discriminate E | injection E; intros; subst; try discriminate; subst; 
            first [destruct (X _ _ _ H) as (? & ? & ?); congruence | destruct (X _ _ _ H') as (? & ? & ?); congruence]] 
        | exfalso; subst; first [destruct (X _ _ _ H) as (? & ? & ?); congruence | destruct (X _ _ _ H') as (? & ? & ?); congruence] ].
Qed.
Lemma block_det fold parent s v r v' r' : block fold parent s v r -> block fold parent s v' r' -> v' = v /\ r' = r.
Proof.
  intros B B'. inversion B as [h x x1 n m x2 w n1 q IN HR LD NN TL E0|h x x1 n k m x2 IN HR LD EN E0]; subst;
  inversion B' as [h' y y1 n' m' y2 w' n1' q' IN' HR' LD' NN' TL' E0'|h' y y1 n' k' m' y2 IN' HR' LD' EN' E0']; subst;
  match goal with E : h' ++ y = h ++ x |- _ => destruct (headers_det _ _ _ _ _ _ IN' IN HR' HR E) as [-> ->] end;
  pose proof (header_rest_det _ _ HR _ HR') as ->; destruct (leading_det _ _ _ _ _ _ _ LD _ _ _ _ LD') as (? & ? & ? & ?); subst.
  - destruct (text_lines_det _ _ _ _ _ _ TL _ _ _ TL') as (-> & -> & ->). auto.
  - exfalso. destruct EN'; congruence.
  - exfalso. destruct EN; congruence.
  - auto.
Qed.

(** ** ASCII block scalars are read *)
Lemma ascii_repeat c n : (c < 128)%N -> all_ascii (repeat c n).
Proof. intros H. induction n; constructor; assumption. Qed.
Lemma ascii_app a b : all_ascii a -> all_ascii b -> all_ascii (a ++ b).
Proof. intros A B. apply Forall_app. auto. Qed.
Lemma joint_ascii fold n : all_ascii (joint fold n).
Proof.
  unfold joint, folded. destruct fold; [|apply ascii_repeat; reflexivity].
  destruct n as [|[|n]]; [constructor|repeat constructor|apply ascii_repeat; reflexivity].
Qed.
Lemma text_lines_ascii fold indent s v n r : text_lines fold indent s v n r -> all_ascii s -> all_ascii v.
Proof.
  induction 1 as [s w L|s w s1 n k r L BL M E|s w s1 n r v n' r' L BL M NN TL IH]; intros A; rewrite (line_split _ _ _ L) in A; apply Forall_app in A as [A1 A2]; auto.
  apply ascii_app; [exact A1|]. apply ascii_app; [apply joint_ascii|]. apply IH.
  destruct (margin_suffix _ _ _ _ _ _ M) as (g & G). apply (ascii_skipn s1 (break_len s1)) in A2. rewrite G in A2. apply Forall_app in A2. apply A2.
Qed.
Lemma chomp_owned_ok base T h st n : all_ascii T -> exists c, scan_chomp base T false h st (List.length T) n = Ok c.
Proof.
  intros A. unfold scan_chomp, utf8_unwrap.
  match goal with |- context [valid_utf8 ?x] => assert (V : valid_utf8 x = true) end.
  { apply valid_text. destruct h.
    - destruct n; [rewrite firstn_all; exact A|]. rewrite firstn_all2 by (rewrite app_length; cbn; lia). apply ascii_app; [exact A|repeat constructor].
    - rewrite firstn_all. exact A.
    - apply ascii_app; [exact A|apply ascii_repeat; reflexivity]. }
  rewrite V. eexists. reflexivity.
Qed.
Lemma slice_text (base : str) a b : all_ascii base -> a <= b -> b <= List.length base -> slice (E := scan_error) base a b = Ok (firstn (b - a) (skipn a base)).
Proof.
  intros A H L. unfold slice. rewrite (ascii_bound base a A), (ascii_bound base b A) by lia. replace (Nat.leb a b) with true by lia. reflexivity.
Qed.
Lemma chomp_borrow_ok base h start v n s1 : all_ascii base -> skipn start base = v ++ s1 -> start <= List.length base ->
  skipn (start + List.length v) base = s1 -> n = 0 \/ break_len s1 <> 0 ->
  exists c, scan_chomp base [] true h start (start + List.length v) n = Ok c.
Proof.
  intros A E LE E2 NB. assert (L : List.length base - start = List.length v + List.length s1) by (rewrite <- skipn_length, E; apply app_length).
  assert (L1 : n <> 0 -> 0 < List.length s1). { intros N0. destruct NB as [NB|NB]; [congruence|]. destruct s1; [exfalso; apply NB; reflexivity|cbn; lia]. }
  assert (AS : all_ascii s1) by (rewrite <- E2; apply ascii_skipn, A).
  unfold scan_chomp. destruct h.
  - destruct n as [|n].
    + cbn [bind]. rewrite slice_text by (exact A || lia). eexists. reflexivity.
    + specialize (L1 ltac:(discriminate)). rewrite slice_text by (exact A || lia). cbn [bind]. rewrite E2. rewrite firstn_all2 by lia.
      assert (W : width_at s1 1 = 0 \/ width_at s1 1 = 1).
      { unfold width_at. destruct s1 as [|a [|c s1]]; cbn [nth_error]; [auto|auto|]. right. apply Forall_inv_tail, Forall_inv in AS. cbn beta in AS.
        unfold width_byte. replace (c <? 128)%N with true by lia. reflexivity. }
      rewrite slice_text by (exact A || lia). eexists. reflexivity.
  - rewrite slice_text by (exact A || lia). eexists. reflexivity.
  - destruct n as [|[|n]].
    + rewrite slice_text by (exact A || lia). eexists. reflexivity.
    + specialize (L1 ltac:(discriminate)). rewrite slice_text by (exact A || lia). eexists. reflexivity.
    + rewrite slice_text by (exact A || lia). cbn [bind app]. unfold utf8_unwrap.
      match goal with |- context [valid_utf8 ?x] => assert (V : valid_utf8 x = true) end.
      { apply valid_text. cbn [repeat]. rewrite app_nil_r.
        replace (start + List.length v - start) with (List.length v) by lia. rewrite E, firstn_app, firstn_all, Nat.sub_diag, firstn_O, app_nil_r.
        apply ascii_app; [|apply (ascii_repeat 10 (S (S n))); reflexivity].
        apply (ascii_skipn _ start) in A. rewrite E in A. apply Forall_app in A. apply A. }
      rewrite V. eexists. reflexivity.
Qed.
Lemma second_byte s s1 n m k s2 : header_rest s s1 -> all_ascii s -> (forall x, s <> 35%N :: x) -> leading 0 0 n s1 k m s2 -> 1 <= k ->
  forall c d x, s = c :: d :: x -> is_digit d = false /\ d <> 43%N /\ d <> 45%N.
Proof.
  intros H A NH L K c d x ->.
  assert (AD : (d < 128)%N) by (apply Forall_inv_tail, Forall_inv in A; exact A).
  assert (G : forall y, s1 = d :: y -> is_digit d = false /\ d <> 43%N /\ d <> 45%N).
  { intros y ->. unfold is_digit. inversion L as [| |? ? ? ? ? ? ? B]; subst; [lia|lia|].
    destruct (break_shapes _ B) as [(z & X)|[(z & X)|[(z & X)|(q & z & X)]]]; injection X as ->; lia. }
  inversion H as [? ? ? B H1|? ? ? L1|? E]; subst.
  - apply rest_head in H1. unfold is_digit. lia.
  - exfalso. apply (NH (d :: x)). reflexivity.
  - destruct E as [E|E]; [discriminate|].
    destruct (break_shapes _ E) as [(z & X)|[(z & X)|[(z & X)|(q & z & X)]]].
    + injection X as -> X. cbn [break_len skipn] in G. apply (G x). reflexivity.
    + injection X as -> X. destruct (N.eq_dec d 10) as [->|ND]; [unfold is_digit; lia|]. apply (G x).
      unfold break_len. change (13 =? 10)%N with false. change (13 =? 13)%N with true. cbn iota. replace (d =? 10)%N with false by lia. reflexivity.
    + injection X as -> X. apply Forall_inv in A. cbn beta in A. lia.
    + injection X as -> X. apply Forall_inv in A. cbn beta in A. lia.
Qed.

Lemma block_complete o base st parent fold b v r : extendable o = false -> all_ascii base -> base = block_indicator fold :: b ->
  block fold parent b v r -> (exists c, In c v /\ c <> 10%N) -> (forall x, b <> 35%N :: x) ->
  exists c st', scan_block_scalar_eager o base st parent fold =
      Ok (TScalar c (if fold then Folded else Literal), List.length base - List.length r, st') /\
    but_final_break v (cow_str c) /\
    (line_feeds_only base -> cow_str c = v \/ r = [] /\ v = cow_str c ++ [10%N] /\ last_line b (cow_str c)) /\
    base = firstn (List.length base - List.length r) base ++ r /\ reads base st r st' /\ 0 < List.length base - List.length r.
Proof.
  intros NE A EB B (cc & IC & NC) NH. assert (V : valid base) by (apply valid_text, A).
  assert (OK : exists x, scan_block_scalar_eager o base st parent fold = Ok x).
  { inversion B as [h s s1 n m s2 w n1 q IN HR LD NN TL E0|h s s1 n k m s2 IN HR LD EN E0].
    2: { exfalso. subst v. destruct (existsb (N.eqb 43) h); [|destruct IC]. apply repeat_spec in IC. congruence. }
    subst q v. clear IC.
    assert (NF : scan_block_scalar_eager o base st parent fold <> Fuel).
    { assert (PB : plain_byte (block_indicator fold)) by (destruct fold; unfold plain_byte; repeat split; discriminate).
      pose proof (scan_block_eager_leaf o (block_indicator fold) b st parent fold PB) as L. rewrite <- EB in L.
      destruct (scan_block_scalar_eager o base st parent fold); cbn in L; congruence || tauto. }
    assert (AHS : all_ascii (h ++ s)). { rewrite EB, <- E0 in A. exact (Forall_inv_tail A). }
    assert (AS : all_ascii s) by (apply Forall_app in AHS; apply AHS).
    assert (SEC : h = [] -> forall c d x, s = c :: d :: x -> is_digit d = false /\ d <> 43%N /\ d <> 45%N).
    { intros ->. cbn [app] in E0. subst s. eapply second_byte; [exact HR|exact AS|exact NH|exact LD|lia]. }
    destruct (headers_forward o NE h s s1 (supd st 1 0 1) IN HR AHS SEC) as (sh & SH).
    destruct (header_line_forward o NE s s1 HR AS sh) as (b1 & sb & sl & SB & W & AL & C0 & A1).
    destruct (detect_forward o NE n s1 _ m s2 LD A1 sl parent C0) as (s3 & bo & DI & C3).
    assert (BH : Block.block_header o base st = Ok (chomps h, None, s1, sl)).
    { unfold Block.block_header. rewrite (cache_static _ _ _ NE). cbn [bind]. rewrite (adv_ascii base st 1 A) by (rewrite EB; cbn; lia). cbn [bind].
      assert (X : skipn 1 base = h ++ s) by (rewrite EB, <- E0; reflexivity). rewrite X, SH. cbn [bind]. rewrite SB. cbn [bind].
      rewrite (cache_static _ _ _ NE). cbn [bind]. rewrite W. cbn [negb]. rewrite AL. reflexivity. }
    set (PA := supd st 1 0 1) in *.
    assert (P0 : place base st base st) by (exists 0; repeat split; cbn; lia).
    assert (AV : adv base st 1 = Ok (h ++ s, PA)).
    { rewrite (adv_ascii base st 1 A) by (rewrite EB; cbn; lia). rewrite EB, <- E0. reflexivity. }
    destruct (place_adv _ _ _ _ _ _ _ P0 AV) as (PA' & _ & _ & _).
    destruct (headers_place _ _ _ _ _ _ _ _ _ PA' SH) as [PH _].
    destruct (header_line_sound _ _ _ V _ _ _ _ _ _ PH SB W AL) as (PL & _ & _).
    assert (DS := DI). unfold detect_indent_level in DS. apply bind_inv in DS as ([[[[b4 s4] bo4] l4] m4] & LOOP & DS). apply loop_runs in LOOP.
    assert (b4 = s2) as -> by congruence. assert (s4 = s3) as -> by congruence. assert (bo4 = bo) as -> by congruence. assert (l4 = n) as -> by congruence.
    clear DS. destruct (detect_sound _ _ _ V _ _ LOOP _ _ _ _ _ _ _ _ _ _ eq_refl eq_refl PL C0) as (P2 & _ & BO & _).
    assert (START : 1 <= sread s3 - sread st).
    { assert (P1 : place (h ++ s) PA (h ++ s) PA) by (exists 0; repeat split; cbn; lia).
      destruct (headers_place _ _ _ _ _ _ _ _ _ P1 SH) as [PH1 _].
      assert (VS : valid (h ++ s)) by apply valid_text, AHS.
      destruct (header_line_sound _ _ _ VS _ _ _ _ _ _ PH1 SB W AL) as (PL1 & _).
      destruct (detect_sound _ _ _ VS _ _ LOOP _ _ _ _ _ _ _ _ _ _ eq_refl eq_refl PL1 C0) as (P1' & _).
      destruct P1' as (k & _ & _ & _ & K). cbn in K. lia. }
    assert (N0 : bo = true -> n = 0) by (intros X; destruct (BO X) as [_ [Y|Y]]; lia).
    unfold scan_block_scalar_eager in NF |- *. rewrite BH in NF |- *. cbn [bind] in NF |- *. rewrite DI in NF |- *. cbn [bind] in NF |- *.
    match type of NF with context [if bo then (?x, []) else ?y] => 
      assert (ST : exists start scratch, (if bo then (x, []) else y) = (start, scratch) /\
       start = (if bo then x else 0) /\ scratch = (if bo then [] else repeat 10%N n)) by (destruct bo; eexists _, _; repeat split) end.
    destruct ST as (start & scratch & ST1 & EST & ESC). rewrite ST1 in NF |- *. clear ST1.
    set (b0 := mkB (mkF s2 s3 scratch bo) start 0 0) in *.
    assert (TX : texts base st b0 (if bo then [] else repeat 10%N n)).
    { unfold texts, b0. cbn [b_f f_bor f_scr b_start b_lines f_st b_end]. destruct bo; [|exact ESC]. split; [exact ESC|]. split; [lia|]. left. auto. }
    destruct (lines_forward o NE base st A _ _ _ _ _ _ TL ltac:(lia) b0 _ eq_refl NN C3 P2 TX) as (b' & R & RB & RL & IR).
    { intros _ X. cbn in X. lia. }
    destruct (lines_sound _ _ _ V _ _ _ _ R _ P2 TX ltac:(lia) C3 NN) as (v & TL' & P' & BF & BT).
    cbn [b0 b_f f_buf f_bor b_lines b_start] in TL', BF, BT.
    rewrite (bind_loop _ _ _ _ _ R NF). cbv zeta.
    assert (SC : exists c, scan_chomp base (f_scr (b_f b')) (f_bor (b_f b')) (chomps h) (b_start b') (b_end b') (b_lines b') = Ok c).
    { assert (A2 : all_ascii s2). { destruct P2 as (k & _ & -> & _). apply ascii_skipn, A. }
      destruct (f_bor (b_f b')) eqn:FB.
      - destruct (BT eq_refl) as (Y1 & _ & _ & Y4 & Y5 & Y6 & x1 & Y7 & Y8 & YL & Y9). rewrite Y4, Y6.
        rewrite Y6 in Y7. apply (chomp_borrow_ok base (chomps h) (b_start b') v (b_lines b') x1 A Y8); [|exact Y7|].
        + rewrite Y5, EST, Y1. destruct P2 as (k & K & _ & _ & K2). lia.
        + destruct Y9 as [(_ & _ & Y9)|(Y9 & _)]; auto.
      - destruct (BF eq_refl) as [Y1 Y2]. rewrite Y2. apply chomp_owned_ok. rewrite Y1. apply ascii_app; [destruct bo; [constructor|apply ascii_repeat; reflexivity]|].
        apply ascii_app; [apply joint_ascii|]. eapply text_lines_ascii; eassumption. }
    destruct SC as (c & SC). rewrite SC. eexists. reflexivity. }
  destruct OK as ([[tok n] st'] & E). 
  destruct (block_sound _ _ _ _ _ _ _ _ V E) as (c & i & s & w & ET & EB2 & LE & B2 & OW & BR).
  rewrite EB in EB2. injection EB2 as <- <-. destruct (block_det _ _ _ _ _ _ _ B B2) as [EV ER]. symmetry in ER.
  assert (EN : n = List.length base - List.length r) by (rewrite ER, skipn_length; lia).
  exists c, st'. rewrite <- EN. subst tok w. split; [exact E|].
  assert (PB : plain_byte (block_indicator fold)) by (destruct fold; unfold plain_byte; repeat split; discriminate).
  pose proof (scan_block_eager_leaf o (block_indicator fold) b st parent fold PB) as L. rewrite <- EB, E in L. cbn in L.
  destruct L as (L1 & L2 & _). rewrite <- ER in L2. 
  split; [|split; [|split; [|split; [exact L2|lia]]]].
  - destruct c as [y|y]; cbn [cow_str]; [apply (BR y eq_refl)|]. rewrite (OW y eq_refl). exists v. auto.
  - intros LF. destruct c as [y|y]; cbn [cow_str]; [|left; apply OW; reflexivity]. rewrite ER. apply (BR y eq_refl), LF.
  - rewrite ER. symmetry. apply firstn_skipn.
Qed.

Lemma block_alone (t b : str) o fold v r : lazy_mode o = false -> all_ascii t -> t = block_indicator fold :: b -> (forall x, b <> 35%N :: x) ->
  block fold 0 b v r -> (exists c, In c v /\ c <> 10%N) -> skips false r [] ->
  exists c, but_final_break v (cow_str c) /\
    (line_feeds_only t -> cow_str c = v \/ r = [] /\ v = cow_str c ++ [10%N] /\ last_line b (cow_str c)) /\
    yields t o [mkEntry (Tok TStreamStart) 0; mkEntry (Tok (TScalar c (if fold then Folded else Literal))) (List.length t - List.length r);
                mkEntry (Tok TStreamEnd) (List.length t)].
Proof.
  intros NL A EB NH B C SK. assert (V : valid t) by (apply valid_text, A).
  destruct (block_complete (no_extend o) t stats0 0 fold b v r eq_refl A EB B C NH) as (c & st' & E & EV & LF & SPL & R & POS).
  exists c. split; [exact EV|]. split; [exact LF|]. pose proof (reads_len _ _ _ _ R) as (RL0 & RL & _). cbn [sread stats0] in RL.
  set (n := List.length t - List.length r) in *.
  assert (OP : opener (block_indicator fold)) by (destruct fold; unfold opener; repeat split; discriminate).
  assert (AR : all_ascii r).
  { rewrite SPL in A. apply Forall_app in A. apply A. }
  assert (NR : skipn n t = r).
  { rewrite SPL at 1. rewrite skipn_app, firstn_length, skipn_all2 by (rewrite firstn_length; lia).
    replace (n - Nat.min n (List.length t)) with 0 by (unfold n; lia). reflexivity. }
  assert (D : dispatch (no_extend o) (mkMs t ready q_new) =
    (mkMs r (mkSc 0 SStream true st' None cxt0) (q_push q_new (mkEntry (Tok (TScalar c (if fold then Folded else Literal))) (sread st'))), Ok tt)).
  { assert (DI : dispatch (no_extend o) (mkMs t ready q_new) = fetch_block_scalar (no_extend o) fold (mkMs t ready q_new)).
    { rewrite EB. clear. unfold dispatch. erewrite run_bind by reflexivity. erewrite run_bind by reflexivity. destruct fold; reflexivity. }
    rewrite DI. unfold fetch_block_scalar. erewrite run_bind by reflexivity. erewrite run_bind by reflexivity.
    cbn [m_buf m_sc].
    assert (SP : scan_block_scalar (no_extend o) t stats0 cxt0 fold = Ok (Tok (TScalar c (if fold then Folded else Literal)), n, st')).
    { unfold scan_block_scalar. change (lazy_mode (no_extend o)) with (lazy_mode o). rewrite NL.
      change (indent_usize (cur_indent cxt0)) with 0. rewrite E. reflexivity. }
    erewrite run_bind by reflexivity. erewrite run_bind by reflexivity.
    erewrite run_bind; [|unfold mlift; cbn [sc_st sc_cxt ready]; rewrite SP; reflexivity]. cbv beta iota.
    assert (AD : forall sc, advance n (mkMs t sc q_new) = (mkMs r sc q_new, Ok tt)).
    { intros sc. rewrite <- NR. unfold advance, mbind, get_buf, mlift, put_buf. cbn [m_buf].
      pose proof (skip_app (E := scan_error) (firstn n t) r (valid_head _ (valid_text _ AR))) as SA.
      rewrite <- SPL in SA. rewrite firstn_length, Nat.min_l in SA by (unfold n; lia). rewrite SA, NR. reflexivity. }
    erewrite run_bind; [|apply AD]. reflexivity. }
  rewrite EB in D. rewrite EB in SPL at 1.
  destruct (one_token (no_extend o) (block_indicator fold) b (firstn n t) r _ _ eq_refl OP SPL (valid_text _ AR) AR SK D eq_refl Logic.I eq_refl) as (k & sc' & SD & CL).
  rewrite <- EB in CL.
  pose proof (calls_yields t o k _ sc' V CL SD) as Y.
  cbn [sc_st] in Y. replace (sread st') with n in Y by (unfold n; lia).
  replace (n + List.length r) with (List.length t) in Y by (unfold n; lia).
  assert (LE : n <=? List.length t = true) by (apply Nat.leb_le; unfold n; lia).
  assert (IS : forall u v w, e_read u = 0 -> e_read v = n -> e_read w = List.length t -> isort [u; v; w] = [u; v; w]).
  { intros u v' w Eu Ev Ew. unfold isort. cbn [fold_left ins]. rewrite Eu, Ev. cbn [Nat.leb]. cbn [ins].
    rewrite Eu, Ev, Ew. cbn [Nat.leb]. rewrite LE. reflexivity. }
  rewrite IS in Y by reflexivity. exact Y.
Qed.

(** ** Lines of block scalars *)
Lemma text_line_line w x : Forall (fun c => c < 128 /\ c <> 10 /\ c <> 13)%N w -> x = [] \/ break_len x <> 0 -> line (w ++ x) w x.
Proof.
  intros F X. induction F as [|c w (C1 & C2 & C3) F IH]; cbn [app]; [apply ln_end, X|].
  pose proof (ln_char c (w ++ x) w x) as L. rewrite (ContentFacts.encode_ascii c C1) in L. apply L; [unfold scalar_value; lia| |exact IH].
  cbn [app]. unfold break_len. replace (c =? 10)%N with false by lia. replace (c =? 13)%N with false by lia.
  destruct (w ++ x) as [|d y]; [reflexivity|]. 
  repeat match goal with |- context [if ?b then _ else _] => destruct b eqn:?; try lia end; try reflexivity;
  repeat match goal with |- context [match ?b with _ => _ end] => destruct b eqn:?; try lia end; reflexivity.
Qed.
Lemma margin_breaks indent n s k r : 0 < indent -> margin indent 0 0 s k r -> margin indent 0 n (repeat 10%N n ++ s) k r.
Proof. intros I M. induction n as [|n IH]; [exact M|]. cbn [repeat app]. apply mg_break; [exact I|discriminate|exact IH]. Qed.
Lemma margin_spaces indent j k x : j + k = indent -> margin indent j 0 (repeat 32%N k ++ x) indent x.
Proof.
  revert j. induction k as [|k IH]; intros j E; cbn [repeat app].
  - replace j with indent by lia. apply mg_full. lia.
  - apply mg_space; [lia|]. apply IH. lia.
Qed.
Lemma lines_text fold k l m : Forall (fun nw => text_line (snd nw)) l -> forall w, text_line w ->
  text_lines fold (S k) (w ++ flat_map (fun nw => repeat 10%N (S (fst nw)) ++ repeat 32%N (S k) ++ snd nw) l ++ repeat 10%N m)
    (block_content fold w l) m [].
Proof.
  induction l as [|[n w1] l IH]; intros F w (NW & FW); unfold block_content; cbn [flat_map fst snd].
  - cbn [app]. rewrite app_nil_r. destruct m as [|m].
    + apply tl_eof. apply text_line_line; auto.
    + apply (tl_last _ _ _ _ (repeat 10%N (S m)) m 0); [apply text_line_line; [exact FW|right; discriminate]|discriminate| |left; lia].
      cbn [break_len repeat N.eqb Pos.eqb]. change (skipn 1 (10%N :: repeat 10%N m)) with (repeat 10%N m).
      rewrite <- (app_nil_r (repeat 10%N m)). apply margin_breaks; [lia|]. apply mg_end; [lia|]. apply not_white; reflexivity.
  - specialize (IH (Forall_inv_tail F) w1 (Forall_inv F)).
    set (x := w1 ++ flat_map (fun nw => repeat 10%N (S (fst nw)) ++ repeat 32%N (S k) ++ snd nw) l ++ repeat 10%N m) in *.
    replace (w ++ _) with (w ++ 10%N :: repeat 10%N n ++ repeat 32%N (S k) ++ x).
    2: { unfold x. cbn [repeat]. rewrite <- ?app_assoc. cbn [app]. rewrite <- ?app_assoc. reflexivity. }
    rewrite <- app_assoc. apply (tl_next fold (S k) _ w (10%N :: repeat 10%N n ++ repeat 32%N (S k) ++ x) n x); [apply text_line_line; [exact FW|right; discriminate]|discriminate| |destruct (Forall_inv F) as [N1 _]; unfold x; cbn [snd] in N1; destruct w1; [congruence|discriminate]|exact IH].
    change (skipn _ _) with (repeat 10%N n ++ repeat 32%N (S k) ++ x). apply margin_breaks; [lia|]. apply margin_spaces. reflexivity.
Qed.
Lemma leading_line k x : ~ white x -> forall j, leading j 0 0 (repeat 32%N k ++ x) (j + k) (j + k) x.
Proof.
  intros W. induction k as [|k IH]; intros j; cbn [repeat app].
  - rewrite Nat.add_0_r. apply (ld_end j 0). exact W.
  - apply ld_space. replace (j + S k) with (S j + k) by lia. apply IH.
Qed.
Lemma block_of_lines fold h k w0 l m o : lazy_mode o = false -> In h headers -> text_line w0 -> (forall x, w0 <> 32%N :: x /\ w0 <> 9%N :: x) ->
  Forall (fun nw => text_line (snd nw)) l ->
  exists c, yields (block_text fold h k w0 l m) o (lone (TScalar c (if fold then Folded else Literal)) (List.length (block_text fold h k w0 l m))) /\
    (l <> [] \/ In 43%N h \/ In 45%N h \/ m <> 1 -> cow_str c = block_content fold w0 l ++ final_breaks h m).
Proof.
  intros NL IN (NW & FW) NB F.
  set (body := repeat 32%N (S k) ++ w0 ++ flat_map (fun nw => repeat 10%N (S (fst nw)) ++ repeat 32%N (S k) ++ snd nw) l ++ repeat 10%N m).
  set (t := block_text fold h k w0 l m). assert (ET : t = block_indicator fold :: h ++ 10%N :: body) by reflexivity.
  assert (AT : Forall (fun c => c < 128 /\ c <> 13)%N body).
  { unfold body. rewrite !Forall_app. 
    assert (SP : forall j, Forall (fun c => c < 128 /\ c <> 13)%N (repeat 32%N j)) by (intros j; induction j; constructor; [lia|assumption]).
    assert (LB : forall j, Forall (fun c => c < 128 /\ c <> 13)%N (repeat 10%N j)) by (intros j; induction j; constructor; [lia|assumption]).
    assert (LN : forall w, Forall (fun c => c < 128 /\ c <> 10 /\ c <> 13)%N w -> Forall (fun c => c < 128 /\ c <> 13)%N w).
    { intros w. apply Forall_impl. intros c H. lia. }
    repeat split; [apply SP|apply LN, FW| |apply LB].
    clear -SP LB LN F. induction F as [|[n w] l (_ & FW) F IH]; [constructor|]. cbn [flat_map fst snd]. rewrite !Forall_app.
    repeat split; [apply LB|apply SP|apply LN, FW|exact IH]. }
  assert (AH : Forall (fun c => c < 128 /\ c <> 13)%N (h ++ [10%N])).
  { destruct IN as [<-|[<-|[<-|[<-|[<-|[<-|[<-|[<-|[]]]]]]]]]; repeat constructor. all: lia. }
  assert (AA : Forall (fun c => c < 128 /\ c <> 13)%N t).
  { rewrite ET. constructor; [destruct fold; cbn; lia|]. change (h ++ 10%N :: body) with (h ++ [10%N] ++ body). rewrite app_assoc. apply Forall_app. auto. }
  assert (A : all_ascii t) by (eapply Forall_impl; [|exact AA]; intros c H; apply H).
  assert (LFO : line_feeds_only t) by (eapply Forall_impl; [|exact AA]; intros c H; cbn beta in *; lia).
  assert (W0 : ~ white (w0 ++ flat_map (fun nw => repeat 10%N (S (fst nw)) ++ repeat 32%N (S k) ++ snd nw) l ++ repeat 10%N m)).
  { destruct w0 as [|c w]; [congruence|]. cbn [app]. destruct (NB w) as [N1 N2]. pose proof (Forall_inv FW) as (H1 & H2 & H3).
    apply white_none; [repeat split; congruence|exact H1]. }
  assert (HR : header_rest (10%N :: body) body). { apply (hr_end (10%N :: body)). right. discriminate. }
  assert (B : block fold 0 (h ++ 10%N :: body) (block_content fold w0 l ++ final_breaks h m) []).
  { pose proof (bk_lines fold 0 h (10%N :: body) body 0 (S k)
      (w0 ++ flat_map (fun nw => repeat 10%N (S (fst nw)) ++ repeat 32%N (S k) ++ snd nw) l ++ repeat 10%N m) (block_content fold w0 l) m [] IN HR) as K.
    replace (Nat.max (S k) 1) with (S k) in K by lia. cbn [repeat app] in K. apply K.
    - apply (leading_line (S k) _ W0 0).
    - destruct w0; [congruence|discriminate].
    - apply lines_text; [exact F|split; assumption]. }
  destruct (block_alone t (h ++ 10%N :: body) o fold (block_content fold w0 l ++ final_breaks h m) [] NL A ET) as (c & BF & LF & Y); [|exact B| | |].
  - intros x. destruct IN as [<-|[<-|[<-|[<-|[<-|[<-|[<-|[<-|[]]]]]]]]]; discriminate.
  - destruct w0 as [|c w]; [congruence|]. exists c. split; [left; reflexivity|]. apply Forall_inv in FW. lia.
  - constructor; reflexivity.
  - exists c. cbn [List.length] in Y. rewrite Nat.sub_0_r in Y. split; [exact Y|]. intros EX.
    destruct (LF LFO) as [E|(_ & EV & h' & s' & j & EB & HH & HR' & N10)]; [exact E|exfalso].
    assert (IN' : In h' headers) by (destruct HH as [-> | ->]; cbn; tauto).
    destruct (headers_det _ _ _ _ _ _ IN IN' HR HR' EB) as [<- <-].
    pose proof (header_rest_det _ _ HR _ HR') as EQ.
    assert (PRE : exists p q, body = p ++ 10%N :: q /\ (l <> [] \/ m <> 1 -> q <> [])).
    { destruct l as [|[n w] l].
      - destruct m as [|m]; [|exists (repeat 32%N (S k) ++ w0), (repeat 10%N m); split; [unfold body; cbn [flat_map app]; rewrite <- app_assoc; reflexivity|]; destruct m; [intros [H|H]; congruence|discriminate]].
        exfalso. unfold body in EQ. cbn [flat_map app repeat] in EQ. rewrite !app_nil_r in EQ.
        assert (X : In 10%N (repeat 32%N (S k) ++ w0)).
        { cbn [repeat app]. rewrite <- EQ. apply in_or_app. right. apply in_or_app. right. left. reflexivity. }
        apply in_app_or in X as [X|X]; [apply repeat_spec in X; discriminate|]. apply (proj1 (Forall_forall _ _) FW) in X. lia.
      - exists (repeat 32%N (S k) ++ w0), (repeat 10%N n ++ repeat 32%N (S k) ++ w ++
          flat_map (fun nw => repeat 10%N (S (fst nw)) ++ repeat 32%N (S k) ++ snd nw) l ++ repeat 10%N m). split.
        { unfold body. cbn [flat_map fst snd]. change (repeat 10%N (S n)) with (10%N :: repeat 10%N n). rewrite <- !app_assoc. reflexivity. }
        intros _ X. apply app_eq_nil in X as [_ X]. discriminate. }
    destruct PRE as (p & q & EP & QN).
    assert (Q : q = []).
    { rewrite EP in EQ. rewrite app_assoc in EQ. 
      assert (NS : ~ In 10%N (repeat 32%N j ++ cow_str c)).
      { intros X. apply in_app_or in X as [X|X]; [apply repeat_spec in X; discriminate|exact (N10 X)]. }
      destruct q as [|d q]; [reflexivity|exfalso]. destruct (exists_last (l := d :: q) ltac:(discriminate)) as (q' & z & EZ). rewrite EZ in EQ.
      change (p ++ 10%N :: q' ++ [z]) with (p ++ (10%N :: q') ++ [z]) in EQ. rewrite app_assoc in EQ.
      assert (X : repeat 32%N j ++ cow_str c = p ++ 10%N :: q') by (apply app_inj_tail in EQ; apply EQ || (symmetry; apply EQ)).
      apply NS. rewrite X. apply in_or_app. right. left. reflexivity. }
    assert (NK : ~ In 43%N h /\ ~ In 45%N h) by (destruct HH as [-> | ->]; cbn; intuition discriminate).
    destruct EX as [EX|[EX|[EX|EX]]]; try tauto; apply QN; tauto.
Qed.

(** ** Refutations *)
Lemma sample_block w e : break_len e <> 0 -> skipn (break_len e) e = [] -> text_line w -> (forall x, w <> 32%N :: x /\ w <> 9%N :: x) ->
  block false 0 ([10%N; 32%N] ++ w ++ e) (w ++ [10%N]) [].
Proof.
  intros B SK (NW & FW) NB.
  pose proof (bk_lines false 0 [] (10%N :: 32%N :: w ++ e) (32%N :: w ++ e) 0 1 (w ++ e) w 1 []) as K. cbn [repeat app Nat.max] in K. apply K.
  - left. reflexivity.
  - apply (hr_end (10%N :: 32%N :: w ++ e)). right. discriminate.
  - apply ld_space. apply (ld_end 1 0). destruct w as [|c w]; [congruence|]. cbn [app]. destruct (NB w) as [N1 N2].
    pose proof (Forall_inv FW) as (H1 & H2 & H3). apply white_none; [repeat split; congruence|exact H1].
  - destruct w; [congruence|discriminate].
  - apply (tl_last _ _ _ _ e 0 0); [apply text_line_line; auto|exact B| |right; reflexivity].
    rewrite SK. apply mg_end; [lia|]. apply not_white. reflexivity.
Qed.
Lemma letter_line : text_line [120%N] /\ forall x, [120%N] <> 32%N :: x /\ [120%N] <> 9%N :: x.
Proof. split; [split; [discriminate|]; repeat constructor; (reflexivity || discriminate)|]. intros x. split; discriminate. Qed.
Lemma last_line_lost : exists w, text_line w /\ w <> w ++ [10%N] /\ block false 0 (10%N :: 32%N :: w ++ [10%N]) (w ++ [10%N]) [] /\
    yields (124%N :: 10%N :: 32%N :: w ++ [10%N]) (mkFlags false false)
      (lone (TScalar (Borrowed w) Literal) 5).
Proof.
  exists [120%N]. destruct letter_line as [L NB]. split; [exact L|]. split; [discriminate|].
  assert (B : block false 0 ([10%N; 32%N] ++ [120%N] ++ [10%N]) ([120%N] ++ [10%N]) []) by (apply sample_block; [discriminate|reflexivity|exact L|exact NB]).
  split; [exact B|].
  destruct (block_of_lines false [] 0 [120%N] [] 1 (mkFlags false false) eq_refl (or_introl eq_refl) L NB (Forall_nil _)) as (c & Y & _).
  cbn [app]. change (block_text false [] 0 [120%N] [] 1) with ([124; 10; 32; 120; 10]%N) in Y. cbn [List.length] in Y.
  assert (c = Borrowed [120%N]) as ->; [|exact Y].
  destruct Y as [Y _]. 
  destruct (consumes (open [124; 10; 32; 120; 10]%N (mkFlags false false)) [Fill; Fill; Fill; Fill; Pull; Pull]) as [l' x] eqn:C.
  destruct (Y _ _ _ C) as (_ & rest & E). vm_compute in C. assert (l' = [mkEntry (Tok TStreamStart) 0; mkEntry (Tok (TScalar (Borrowed [120]%N) Literal)) 5]) as -> by congruence.
  unfold lone in E. cbn [app] in E. congruence.
Qed.
Lemma crlf_halved : exists w, text_line w /\ block false 0 ([10%N; 32%N] ++ w ++ [13; 10]%N) (w ++ [10%N]) [] /\
    exists n, yields ([124%N; 10%N; 32%N] ++ w ++ [13; 10]%N) (mkFlags false false) (lone (TScalar (Borrowed (w ++ [13%N])) Literal) n).
Proof.
  exists [120%N]. destruct letter_line as [L NB]. split; [exact L|].
  assert (B : block false 0 ([10%N; 32%N] ++ [120%N] ++ [13; 10]%N) ([120%N] ++ [10%N]) []) by (apply sample_block; [discriminate|reflexivity|exact L|exact NB]).
  split; [exact B|]. exists 6.
  destruct (block_alone (124%N :: [10%N; 32%N] ++ [120%N] ++ [13; 10]%N) ([10%N; 32%N] ++ [120%N] ++ [13; 10]%N) (mkFlags false false) false ([120%N] ++ [10%N]) [] eq_refl) as (c & _ & _ & Y); 
    [repeat constructor|reflexivity|intros x; discriminate|exact B|exists 120%N; split; [left; reflexivity|discriminate]|constructor; reflexivity|].
  cbn [app List.length Nat.sub] in Y |- *. 
  assert (c = Borrowed [120; 13]%N) as ->; [|exact Y].
  destruct Y as [Y _]. 
  destruct (consumes (open [124; 10; 32; 120; 13; 10]%N (mkFlags false false)) [Fill; Fill; Fill; Fill; Pull; Pull]) as [l' x] eqn:C.
  destruct (Y _ _ _ C) as (_ & rest & E). vm_compute in C. assert (l' = [mkEntry (Tok TStreamStart) 0; mkEntry (Tok (TScalar (Borrowed [120; 13]%N) Literal)) 6]) as -> by congruence.
  unfold lone in E. cbn [app] in E. congruence.
Qed.
Lemma empty_panics : exists b, block false 0 b [] [] /\
    forall o, lazy_mode o = false -> snd (consumes (open (124%N :: b) o) [Fill; Fill]) = Panic.
Proof.
  exists []. split.
  - apply (bk_empty false 0 [] [] [] 0 0 0 []); [left; reflexivity|apply (hr_end []); auto|apply (ld_end 0 0); apply not_white; reflexivity|auto].
  - intros [[] []] H; try discriminate; vm_compute; reflexivity.
Qed.
Lemma sibling_rejected : exists b r, block false 0 b [] r /\ r = bytes "- c" /\
    forall o, lazy_mode o = false ->
      snd (consumes (open (bytes "- |" ++ b) o) [Fill; Fill; Fill; Fill]) = Err (RScan InvalidBlockScalar).
Proof.
  exists (10%N :: bytes "- c"), (bytes "- c"). split; [|split; [reflexivity|]].
  - apply (bk_empty false 0 [] (10%N :: bytes "- c") (bytes "- c") 0 0 0); [left; reflexivity| | |left; discriminate].
    + apply (hr_end (10%N :: bytes "- c")). right. discriminate.
    + apply (ld_end 0 0). apply not_white. reflexivity.
  - intros [[] []] H; try discriminate; vm_compute; reflexivity.
Qed.
Lemma explicit_panics o : lazy_mode o = false ->
    snd (consumes (open (bytes "|1" ++ [10%N] ++ bytes " x" ++ [10%N]) o) [Fill; Fill]) = Panic.
Proof. destruct o as [[] []]; intros H; try discriminate; vm_compute; reflexivity. Qed.
Lemma accent_panics : exists b v, well_formed b /\ block false 0 b v [] /\
    forall o, lazy_mode o = false -> snd (consumes (open (124%N :: b) o) [Fill; Fill]) = Panic.
Proof.
  exists [10; 32; 195; 169]%N, [195; 169]%N. split; [apply valid_iff; reflexivity|]. split.
  - pose proof (bk_lines false 0 [] [10; 32; 195; 169]%N [32; 195; 169]%N 0 1 [195; 169]%N [195; 169]%N 0 []) as K. apply K.
    + left. reflexivity.
    + apply (hr_end [10; 32; 195; 169]%N). right. discriminate.
    + apply ld_space. apply (ld_end 1 0). apply not_white. reflexivity.
    + discriminate.
    + apply tl_eof. pose proof (ln_char 233 [] [] []) as L. cbn in L. apply L; [unfold scalar_value; lia|reflexivity|apply ln_end; auto].
  - intros [[] []] H; try discriminate; vm_compute; reflexivity.
Qed.
