(** Block scalars of ASCII texts: lazy scanning and the header line do not panic. *)
From Verif Require Export SpecHarmless BlockFacts.
From Coq Require Import Lia ZifyBool ZifyN ZifyNat.
Open Scope nat_scope.

Definition unshaken {A} (P : A -> Prop) (m : sres A) : Prop :=
  match m with Ok a => P a | Panic => False | _ => True end.
Lemma unshaken_bind {A B} (P : A -> Prop) (Q : B -> Prop) (m : sres A) (k : A -> sres B) :
  unshaken P m -> (forall a, m = Ok a -> P a -> unshaken Q (k a)) -> unshaken Q (bind m k).
Proof. destruct m; cbn; auto. Qed.
Lemma unshaken_imp {A} (P Q : A -> Prop) (m : sres A) : unshaken P m -> (forall a, P a -> Q a) -> unshaken Q m.
Proof. destruct m; cbn; auto. Qed.
Lemma unshaken_loop {S R} (body : S -> sres (step S R)) (Inv : S -> Prop) (P : R -> Prop) fuel : forall s,
  (forall s, Inv s -> unshaken (fun x => match x with Next s' => Inv s' | Done r => P r end) (body s)) ->
  Inv s -> unshaken P (loop fuel body s).
Proof.
  induction fuel as [|fuel IH]; intros s H I; cbn [loop]; [exact Logic.I|].
  specialize (H s I) as HS. destruct (body s) as [[s'|r]|e| |]; cbn in *; auto.
Qed.
Lemma cache_unshaken o b n : unshaken (fun _ => True) (cache o b n).
Proof.
  pose proof (cache_leaf o b n False) as H. destruct (cache o b n) as [[]|e| |]; cbn in *; auto.
Qed.
Lemma adv_unshaken b st n : ascii b -> n <= List.length b ->
  unshaken (fun x : str * stats => fst x = skipn n b /\ ascii (fst x)) (adv b st n).
Proof.
  intros A L. unfold adv, skip. rewrite (ascii_boundary _ _ A L). cbn. split; [reflexivity|apply ascii_skipn, A].
Qed.
Lemma adv_line_unshaken b st : ascii b ->
  unshaken (fun x : str * stats => fst x = skipn (break_amt b) b /\ ascii (fst x)) (adv_line b st).
Proof.
  intros A. unfold adv_line, skip. rewrite (ascii_boundary _ _ A (break_amt_le b)). cbn.
  split; [reflexivity|apply ascii_skipn, A].
Qed.
Lemma some_byte b c : at_is b 0 c = true -> 1 <= List.length b.
Proof. intros H. destruct (at_is_cons _ _ H) as (r & ->). cbn. lia. Qed.
Lemma blank_byte b : is_blank b = true -> 1 <= List.length b.
Proof. destruct b; [discriminate|cbn; lia]. Qed.
Lemma ascii_suffix n b : ascii b -> ascii (skipn n b).
Proof. apply ascii_skipn. Qed.

(** ** The header line *)
Lemma ascii_break b : ascii b -> is_break b = match b with x :: _ => (x =? 10) || (x =? 13) | [] => false end%N.
Proof.
  intros A. unfold is_break, break_amt. destruct b as [|x r]; [reflexivity|]. inversion A as [|y l X A']; subst.
  destruct (x =? 13)%N eqn:E1; [rewrite orb_true_r; destruct (at_is r 0 10); reflexivity|].
  destruct (x =? 10)%N eqn:E2; [reflexivity|].
  destruct (x =? 194)%N eqn:E3; [lia|]. destruct (x =? 226)%N eqn:E4; [lia|]. reflexivity.
Qed.

Lemma headers_unshaken o b st : ascii b ->
  unshaken (fun x : chomp_style * option nat * str * stats => let '(_, _, b', _) := x in
     ascii b' /\ exists k, b' = skipn k b /\ k <= 2 /\ k <= List.length b /\
       (Forall header_sign (firstn k b) \/ exists y t, b' = y :: t /\ header_byte y = true)) (scan_headers o b st).
Proof.
  intros A. unfold scan_headers.
  eapply unshaken_bind; [apply cache_unshaken|]. intros _ _ _. cbv zeta.
  match goal with |- context [let '(chomp, skip2) := ?x in _] => destruct x as [chomp k2] eqn:E2 end.
  match goal with |- context [adv b st (?x + k2)] => set (k1 := x) end.
  assert (L : k1 + k2 <= 2 /\ k1 + k2 <= List.length b /\
    (Forall header_sign (firstn (k1 + k2) b) \/ exists y t, skipn (k1 + k2) b = y :: t /\ header_byte y = true)).
  { subst k1. destruct b as [|x [|y r]]; unfold at_is in E2; cbn [nth_error List.length] in E2 |- *.
    - injection E2 as <- <-. cbn. repeat split; auto.
    - unfold header_sign, header_byte. destruct (is_digit x) eqn:D; unfold is_digit, rng in D;
        (destruct (x =? 43)%N eqn:X3; [|destruct (x =? 45)%N eqn:X5]); cbn [orb] in E2; injection E2 as <- <-;
        try lia; cbn; (split; [lia|]); (split; [lia|]); left; repeat constructor; lia.
    - unfold header_sign, header_byte. destruct (is_digit x) eqn:D; destruct (is_digit y) eqn:D'; pose proof D as DX; pose proof D' as DY;
        unfold is_digit, rng in DX, DY;
        destruct (x =? 43)%N eqn:X3; destruct (y =? 43)%N eqn:Y3; destruct (x =? 45)%N eqn:X5; destruct (y =? 45)%N eqn:Y5;
        cbn [orb] in E2; injection E2 as <- <-; try lia; cbn [Nat.add firstn skipn List.length];
        (split; [lia|]); (split; [lia|]);
        first [ left; solve [repeat constructor; lia] | right; exists y, r; split; [reflexivity|]; rewrite ?D'; lia ]. }
  eapply unshaken_bind; [apply adv_unshaken; [exact A|apply L]|].
  intros [b' st'] _ [EB A']. cbn [fst] in EB, A'. subst b'. cbn [bind unshaken]. split; [exact A'|].
  exists (k1 + k2). split; [reflexivity|]. exact L.
Qed.

(** White space and a comment. *)
Definition spaced (w : str) : Prop := exists s c, w = s ++ c /\ Forall (fun x => x = 32 \/ x = 9)%N s /\
  (c = [] \/ exists c', c = 35%N :: c') /\ Forall (fun x => ~ ends_line x) c.
Lemma blanks_unshaken o b st : ascii b ->
  unshaken (fun x : str * stats => ascii (fst x) /\ exists w, b = w ++ fst x /\ spaced w) (skip_blanks o b st).
Proof.
  intros A. unfold skip_blanks. eapply unshaken_bind; [apply cache_unshaken|]. intros _ _ _.
  set (I1 := fun x : str * stats => ascii (fst x) /\ exists w, b = w ++ fst x /\ Forall (fun x => x = 32 \/ x = 9)%N w).
  eapply unshaken_bind.
  { apply (unshaken_loop _ I1 I1); [|split; [exact A|exists []; split; [reflexivity|constructor]]].
    intros [b1 s1] (A1 & w & EB & F). cbn [fst] in A1, EB. unfold skip_blank_body.
    destruct (is_blank b1) eqn:B; [|cbn; split; [exact A1|eauto]].
    eapply unshaken_bind; [apply cache_unshaken|]. intros _ _ _.
    eapply unshaken_bind; [apply adv_unshaken; [exact A1|apply blank_byte, B]|]. intros s' _ [E X].
    cbn. split; [exact X|]. destruct b1 as [|x r]; [discriminate|]. exists (w ++ [x]).
    rewrite E, <- app_assoc. cbn [skipn app]. split; [exact EB|]. apply Forall_app. split; [exact F|].
    constructor; [|constructor]. unfold is_blank, at_is in B. cbn [nth_error] in B. lia. }
  intros [b1 s1] _ (A1 & w & EB & F). cbn [fst] in A1, EB.
  destruct (at_is b1 0 35) eqn:HC.
  2: { cbn. split; [exact A1|]. exists w. split; [exact EB|]. exists w, []. rewrite app_nil_r. auto. }
  destruct (at_is_cons _ _ HC) as (r & ->).
  set (I2 := fun x : str * stats => ascii (fst x) /\ exists c, 35%N :: r = c ++ fst x /\
     (c = [] \/ exists c', c = 35%N :: c') /\ Forall (fun x => ~ ends_line x) c).
  eapply unshaken_imp.
  - apply (unshaken_loop _ I2 I2); [|split; [exact A1|exists []; split; [reflexivity|auto]]].
    intros [b2 s2] (A2 & c & EC & HD & FC). cbn [fst] in A2, EC. unfold skip_line_body.
    destruct (is_breakZ b2) eqn:B; [cbn; split; [exact A2|eauto]|].
    eapply unshaken_bind; [apply cache_unshaken|]. intros _ _ _.
    eapply unshaken_bind; [apply adv_unshaken; [exact A2|destruct b2; [discriminate|cbn; lia]]|].
    intros s' _ [E X]. cbn. split; [exact X|]. destruct b2 as [|x r2]; [discriminate|]. exists (c ++ [x]).
    rewrite E, <- app_assoc. cbn [skipn app]. split; [exact EC|]. split.
    + right. destruct HD as [->|(c' & ->)]; [cbn in EC; exists []; assert (x = 35%N) as -> by congruence; reflexivity|].
      exists (c' ++ [x]). reflexivity.
    + apply Forall_app. split; [exact FC|]. constructor; [|constructor].
      unfold is_breakZ in B. rewrite (ascii_break _ A2) in B. unfold ends_line. cbn in B. lia.
  - intros [b2 s2] (A2 & c & EC & HD & FC). cbn [fst] in *. split; [exact A2|]. exists (w ++ c).
    rewrite EB, EC, <- app_assoc. split; [reflexivity|]. exists w, c. auto.
Qed.

Lemma header_unshaken o c r st : ascii (c :: r) ->
  unshaken (fun x : chomp_style * option nat * str * stats => let '(_, _, b', _) := x in ascii b' /\ header_line r)
    (block_header o (c :: r) st).
Proof.
  intros A. unfold block_header. eapply unshaken_bind; [apply cache_unshaken|]. intros _ _ _.
  eapply unshaken_bind; [apply adv_unshaken; [exact A|cbn; lia]|]. intros [b1 s1] _ [E1 A1]. cbn [fst skipn] in E1, A1. subst b1.
  eapply unshaken_bind; [apply headers_unshaken, A1|]. intros [[[ch ex] b2] s2] _ (A2 & k & E2 & K2 & KL & H2).
  pose proof (skip_blanks_leaf o b2 s2) as LF.
  eapply unshaken_bind; [apply blanks_unshaken, A2|]. intros [b3 s3] EQ (A3 & w & EW & SW). cbn [fst] in A3, EW.
  rewrite EQ in LF. destruct LF as (_ & B3 & K3).
  eapply unshaken_bind; [apply cache_unshaken|]. intros _ _ _. destruct (is_wsZ b3) eqn:W; [|exact Logic.I].
  unfold is_wsZ in W. rewrite B3, (ascii_break _ A3) in W. cbn [orb] in W. cbn [negb].
  eapply unshaken_bind; [apply adv_line_unshaken, A3|]. intros [b4 s4] _ [_ A4]. cbn [bind unshaken]. split; [exact A4|].
  destruct H2 as [H2|(y & t & EY & HY)].
  - destruct SW as (s & c' & -> & FS & HC & FC). exists (firstn k r), s, c', b3.
    split; [rewrite !app_assoc, <- (app_assoc (firstn k r)), <- (app_assoc (firstn k r)), <- EW, E2; symmetry; apply firstn_skipn|].
    split; [rewrite firstn_length; lia|]. split; [exact H2|]. split; [exact FS|]. split; [exact HC|]. split; [exact FC|].
    destruct b3 as [|x b3]; [left; reflexivity|]. right. exists x, b3. split; [reflexivity|]. unfold ends_line.
    cbn [is_empty] in W. lia.
  - exfalso. subst b2. rewrite EY in *.
    assert (NB : is_blank (y :: t) = false /\ at_is (y :: t) 0 35 = false).
    { unfold header_byte, is_digit, rng in HY. unfold is_blank, at_is. cbn [nth_error]. lia. }
    assert (X : b3 = y :: t) by (apply K3; apply NB). rewrite X in W. unfold header_byte, is_digit, rng in HY. cbn [is_empty] in W. lia.
Qed.

(** ** The lazy scanner *)
Lemma detect_unshaken o b st i n bo : ascii b ->
  unshaken (fun x : nat * str * stats * nat * bool => let '(_, b', _, _, _) := x in ascii b') (detect_indent_level o b st i n bo).
Proof.
  intros A. unfold detect_indent_level. eapply unshaken_bind.
  { apply (unshaken_loop _ (fun x : str * stats * bool * nat * nat => let '(b', _, _, _, _) := x in ascii b')
      (fun x : str * stats * bool * nat * nat => let '(b', _, _, _, _) := x in ascii b')); [|exact A].
    intros [[[[b1 s1] bo1] n1] i1] A1. unfold detect_body.
    eapply unshaken_bind; [apply cache_unshaken|]. intros _ _ _.
    eapply unshaken_bind.
    { apply (unshaken_loop _ (fun x : str * stats * bool => ascii (fst (fst x)))
        (fun x : str * stats * bool => ascii (fst (fst x)))); [|exact A1].
      intros [[b2 s2] bo2] A2. cbn [fst] in A2. unfold detect_space_body. destruct (is_blank b2) eqn:B; [|exact A2].
      eapply unshaken_bind; [apply cache_unshaken|]. intros _ _ _. destruct (at_is b2 0 9); [exact Logic.I|]. cbv zeta.
      eapply unshaken_bind; [apply adv_unshaken; [exact A2|apply blank_byte, B]|]. intros [b3 s3] _ [_ A3]. exact A3. }
    intros [[b2 s2] bo2] _ A2. cbn [fst] in A2. cbv zeta.
    eapply unshaken_bind; [apply cache_unshaken|]. intros _ _ _. destruct (negb (is_break b2)); [exact A2|].
    eapply unshaken_bind; [apply adv_line_unshaken, A2|]. intros [b3 s3] _ [_ A3]. exact A3. }
  intros [[[[b1 s1] bo1] n1] i1] _ A1. exact A1.
Qed.
Lemma indent_unshaken o b st n i : ascii b ->
  unshaken (fun x : str * stats * nat => ascii (fst (fst x))) (scan_indent o b st n i).
Proof.
  intros A. unfold scan_indent. destruct (Nat.leb i (scol st)); [exact A|].
  eapply unshaken_bind; [apply cache_unshaken|]. intros _ _ _.
  apply (unshaken_loop _ (fun x : str * stats * nat => ascii (fst (fst x))) (fun x : str * stats * nat => ascii (fst (fst x)))); [|exact A].
  intros [[b1 s1] n1] A1. cbn [fst] in A1. unfold scan_indent_body.
  destruct (Nat.ltb (scol s1) i && is_ws b1); [|exact A1].
  eapply unshaken_bind with (P := fun x : str * stats * nat => ascii (fst (fst x))).
  { destruct (at_is b1 0 32) eqn:E.
    - eapply unshaken_bind; [apply adv_unshaken; [exact A1|apply (some_byte _ _ E)]|]. intros [b2 s2] _ [_ A2]. exact A2.
    - destruct (at_is b1 0 9); [exact Logic.I|]. destruct (is_break b1); [|exact A1].
      eapply unshaken_bind; [apply adv_line_unshaken, A1|]. intros [b2 s2] _ [_ A2]. exact A2. }
  intros x _ A2. eapply unshaken_bind; [apply cache_unshaken|]. intros _ _ _. exact A2.
Qed.
Lemma line_unshaken o s : ascii (f_buf s) ->
  unshaken (fun s' => ascii (f_buf s')) (loop (fuel_of (f_buf s)) (block_line_body o) s).
Proof.
  intros A. apply (unshaken_loop _ (fun s' => ascii (f_buf s')) (fun s' => ascii (f_buf s'))); [|exact A].
  intros s1 A1. unfold block_line_body. destruct (is_breakZ (f_buf s1)) eqn:B; [exact A1|].
  eapply unshaken_bind; [apply cache_unshaken|]. intros _ _ _.
  assert (F : f_buf (f_push_head s1) = f_buf s1) by (unfold f_push_head; destruct (f_bor s1); reflexivity).
  eapply unshaken_bind with (P := fun s' => ascii (f_buf s')).
  { unfold f_adv. rewrite F. eapply unshaken_bind; [apply adv_unshaken; [exact A1|]|].
    { destruct (f_buf s1); [discriminate|cbn; lia]. }
    intros [b2 s2] _ [_ A2]. exact A2. }
  intros s2 _ A2. exact A2.
Qed.

Lemma lazy_unshaken o c r st i fold : ascii (c :: r) -> scan_block_scalar_lazy o (c :: r) st i fold <> Panic.
Proof.
  intros A. enough (U : unshaken (fun _ => True) (scan_block_scalar_lazy o (c :: r) st i fold)).
  { intros X. rewrite X in U. exact U. }
  unfold scan_block_scalar_lazy.
  eapply unshaken_bind; [apply header_unshaken, A|]. intros [[[ch ex] b1] s1] _ [A1 _].
  eapply unshaken_bind with (P := fun x : nat * str * stats => ascii (snd (fst x))).
  { destruct ex as [e|]; [exact A1|]. eapply unshaken_bind; [apply detect_unshaken, A1|].
    intros [[[[i2 b2] s2] n2] bo2] _ A2. exact A2. }
  intros [[i2 b2] s2] _ A2. cbn [fst snd] in A2.
  eapply unshaken_bind with (P := fun _ => True).
  { apply (unshaken_loop _ (fun x : str * stats => ascii (fst x)) (fun _ => True)); [|exact A2].
    intros [b3 s3] A3. cbn [fst] in A3. unfold block_lazy_body.
    destruct (Nat.eqb (scol s3) i2 && negb (is_empty b3)); [|exact Logic.I].
    eapply unshaken_bind; [apply cache_unshaken|]. intros _ _ _.
    eapply unshaken_bind; [apply (line_unshaken o (mkF b3 s3 [] true)), A3|]. intros f _ A4.
    eapply unshaken_bind; [apply cache_unshaken|]. intros _ _ _.
    eapply unshaken_bind with (P := fun s' => ascii (f_buf s')).
    { destruct (is_break (f_buf f)); [|exact A4]. unfold f_adv_line.
      eapply unshaken_bind; [apply adv_line_unshaken, A4|]. intros [b5 s5] _ [_ A5]. exact A5. }
    intros f2 _ A5. eapply unshaken_bind; [apply indent_unshaken, A5|]. intros [[b6 s6] n6] _ A6. exact A6. }
  intros [b3 s3] _ _. cbv zeta. unfold slice.
  assert (L : consumed (c :: r) b3 <= List.length (c :: r)) by (unfold consumed; lia).
  rewrite (ascii_boundary _ _ A L). cbn. exact Logic.I.
Qed.

(** The eager scanner panics behind a header line only. *)
Lemma eager_unshaken o c r st i fold : ascii (c :: r) -> scan_block_scalar_eager o (c :: r) st i fold = Panic -> header_line r.
Proof.
  intros A. unfold scan_block_scalar_eager. pose proof (header_unshaken o c r st A) as H.
  destruct (block_header o (c :: r) st) as [[[[ch ex] b1] s1]|e| |]; cbn [bind]; try discriminate.
  - intros _. apply H.
  - destruct H.
Qed.
