(** Contracts of block scalars.  Panics are not excluded here. *)
From Verif Require Export PlainFacts Block.
From Coq Require Import Lia ZifyBool ZifyN ZifyNat.
Open Scope nat_scope.

(** Reading that may end with a line break counted at the end of the text. *)
Definition reads_eof (s : str) (st : stats) (s' : str) (st' : stats) : Prop :=
  reads s st s' st' \/ (s' = [] /\ exists st1, reads s st [] st1 /\ st' = supd st1 0 1 0).

Definition header_byte (b : N) : bool := is_digit b || (b =? 43)%N || (b =? 45)%N.
Lemma header_plain b : header_byte b = true -> plain_byte b.
Proof.
  unfold header_byte, is_digit, plain_byte. intros H.
  repeat split; try lia; intros ->; discriminate.
Qed.

Lemma scan_headers_leaf o buf st :
  leaf o (fun x : chomp_style * option nat * str * stats => let '(_, explicit, buf', st') := x in
            (match explicit with Some e => 0 < e | None => True end) /\
            (reads buf st buf' st' \/ exists b t, buf' = b :: t /\ header_byte b = true))
    True (scan_headers o buf st).
Proof.
  unfold scan_headers. eapply leaf_bind; [prim|]. intros _ _.
  set (digit := fun n => match nth_error buf n with
                         | Some b => if is_digit b then Some (N.to_nat (b - 48)) else None
                         | None => None end).
  change (match nth_error buf 0 with
          | Some b => if is_digit b then Some (N.to_nat (b - 48)) else None
          | None => None end) with (digit 0).
  change (match nth_error buf 1 with
          | Some b => if is_digit b then Some (N.to_nat (b - 48)) else None
          | None => None end) with (digit 1).
  set (ind := match digit 0 with Some d => Some d | None => digit 1 end).
  set (has := fun c => at_is buf 0 c || at_is buf 1 c).
  change (at_is buf 0 43 || at_is buf 1 43) with (has 43%N).
  change (at_is buf 0 45 || at_is buf 1 45) with (has 45%N).
  destruct (if has 43%N then (Keep, 1) else if has 45%N then (Strip, 1) else (Clip, 0)) as [chomp skip2] eqn:CH.
  assert (EX : match (match ind with Some (S d) => Some (S d) | _ => None end) with Some e => 0 < e | None => True end).
  { destruct ind as [[|d]|]; [exact Logic.I|lia|exact Logic.I]. }
  set (skip1 := match ind with Some _ => 1 | None => 0 end).
  eapply leaf_bind; [eapply leaf_impl; [apply (adv_leaf o buf st (skip1 + skip2))|intros a X; exact X|auto]|].
  intros [buf' st'] (-> & -> & B). cbn [leaf]. split; [exact EX|].
  assert (PL : forall n, n <= List.length buf -> Forall (fun b => header_byte b = true) (firstn n buf) ->
    is_boundary buf n = true -> reads buf st (skipn n buf) (supd st n 0 n)).
  { intros n L F BD. apply reads_adv; [exact L| |exact BD].
    apply no_breaks; [exact L|]. eapply Forall_imp; [|exact F]. intros b. apply header_plain. }
  pose proof (boundary_le _ _ B) as LE.
  unfold skip1, ind, digit in *. clear EX. subst has. cbv beta in CH. unfold at_is in CH.
  destruct buf as [|x [|y t]]; cbn [nth_error] in *.
  - injection CH as <- <-. left. apply (PL 0); [lia|constructor|reflexivity].
  - destruct (is_digit x) eqn:D.
    + rewrite !orb_false_r in CH.
      replace (x =? 43)%N with false in CH by (unfold is_digit in D; lia).
      replace (x =? 45)%N with false in CH by (unfold is_digit in D; lia).
      injection CH as <- <-. left. apply (PL 1); [cbn; lia| |exact B].
      repeat constructor. unfold header_byte. rewrite D. reflexivity.
    + rewrite !orb_false_r in CH.
      destruct (x =? 43)%N eqn:X3; [|destruct (x =? 45)%N eqn:X5]; injection CH as <- <-; left.
      * apply (PL 1); [cbn; lia| |exact B]. repeat constructor. unfold header_byte. rewrite X3. lia.
      * apply (PL 1); [cbn; lia| |exact B]. repeat constructor. unfold header_byte. rewrite X5. lia.
      * apply (PL 0); [lia|constructor|reflexivity].
  - (* two bytes *)
    assert (ONE : forall b r, skipn 1 (x :: y :: t) = b :: r -> b = y) by (cbn; congruence).
    destruct (is_digit x) eqn:DX.
    + replace (x =? 43)%N with false in CH by (unfold is_digit in DX; lia).
      replace (x =? 45)%N with false in CH by (unfold is_digit in DX; lia). cbn [orb] in CH.
      destruct (y =? 43)%N eqn:Y3; [|destruct (y =? 45)%N eqn:Y5]; injection CH as <- <-.
      * left. apply (PL 2); [cbn; lia| |exact B]. repeat constructor; unfold header_byte; lia.
      * left. apply (PL 2); [cbn; lia| |exact B]. repeat constructor; unfold header_byte; lia.
      * left. apply (PL 1); [cbn; lia| |exact B]. repeat constructor; unfold header_byte; lia.
    + destruct (is_digit y) eqn:DY.
      * replace (y =? 43)%N with false in CH by (unfold is_digit in DY; lia).
        replace (y =? 45)%N with false in CH by (unfold is_digit in DY; lia). rewrite !orb_false_r in CH.
        destruct (x =? 43)%N eqn:X3; [|destruct (x =? 45)%N eqn:X5]; injection CH as <- <-.
        -- left. apply (PL 2); [cbn; lia| |exact B]. repeat constructor; unfold header_byte; lia.
        -- left. apply (PL 2); [cbn; lia| |exact B]. repeat constructor; unfold header_byte; lia.
        -- right. exists y, t. split; [reflexivity|]. unfold header_byte. rewrite DY. reflexivity.
      * destruct (x =? 43)%N eqn:X3; [cbn [orb] in CH; injection CH as <- <-|].
        { left. apply (PL 1); [cbn; lia| |exact B]. repeat constructor; unfold header_byte; lia. }
        destruct (y =? 43)%N eqn:Y3; [cbn [orb] in CH; injection CH as <- <-|].
        { right. exists y, t. split; [reflexivity|]. unfold header_byte. lia. }
        destruct (x =? 45)%N eqn:X5; [cbn [orb] in CH; injection CH as <- <-|].
        { left. apply (PL 1); [cbn; lia| |exact B]. repeat constructor; unfold header_byte; lia. }
        destruct (y =? 45)%N eqn:Y5; cbn [orb] in CH; injection CH as <- <-.
        { right. exists y, t. split; [reflexivity|]. unfold header_byte. lia. }
        { left. apply (PL 0); [lia|constructor|reflexivity]. }
Qed.

Lemma skip_blanks_leaf o buf st :
  leaf o (fun x : str * stats => let '(buf', st') := x in reads buf st buf' st' /\ is_blank buf' = false /\
            (is_blank buf = false -> at_is buf 0 35 = false -> buf' = buf))
    True (skip_blanks o buf st).
Proof.
  unfold skip_blanks. eapply leaf_bind; [prim|]. intros _ _.
  eapply leaf_bind.
  { apply (leaf_loop o _ (fun x : str * stats => let '(b, s) := x in reads buf st b s /\ (is_blank buf = false -> b = buf))
      (fun x : str * stats => List.length (fst x))
      (fun x : str * stats => let '(b, s) := x in (reads buf st b s /\ is_blank b = false) /\ (is_blank buf = false -> b = buf)));
      [|split; [constructor|auto]|unfold fuel_of; cbn; lia].
    intros [b1 st1] [R K]. unfold skip_blank_body.
    destruct (is_blank b1) eqn:BL; [|cbn; auto].
    eapply leaf_bind; [prim|]. intros _ _.
    eapply leaf_bind; [apply (adv1_leaf o b1 st1 True (is_blank_nonempty _ BL) (is_blank_not_break _ BL)); auto|].
    intros [b2 st2] [R2 L2]. cbn [leaf fst]. split; [|exact L2]. split; [eapply reads_trans; eauto|].
    intros X. rewrite (K X) in BL. congruence. }
  intros [b1 st1] [[R1 B1] K]. destruct (at_is b1 0 35) eqn:H; [|cbn; auto].
  apply (leaf_loop o _ (fun x : str * stats => let '(b, s) := x in reads buf st b s)
      (fun x : str * stats => List.length (fst x)));
      [|exact R1|unfold fuel_of; cbn; lia].
  intros [b2 st2] R. unfold skip_line_body.
  destruct (is_breakZ b2) eqn:BZ.
  { cbn [leaf]. split; [exact R|]. split.
    - destruct (is_blank b2) eqn:BL; [|reflexivity].
      unfold is_breakZ in BZ. rewrite (is_blank_not_break _ BL) in BZ.
      apply is_blank_nonempty in BL. destruct b2; [congruence|discriminate].
    - intros X Y. rewrite (K X) in H. congruence. }
  eapply leaf_bind; [prim|]. intros _ _.
  assert (NE : b2 <> []) by (intros ->; discriminate).
  assert (NB : is_break b2 = false) by (unfold is_breakZ in BZ; destruct (is_break b2); [discriminate|reflexivity]).
  eapply leaf_bind; [apply (adv1_leaf o b2 st2 True NE NB); auto|].
  intros [b3 st3] [R3 L3]. cbn [leaf fst]. split; [eapply reads_trans; eauto|exact L3].
Qed.

(** The header line. *)
Lemma block_header_leaf o c r st : plain_byte c ->
  leaf o (fun x : chomp_style * option nat * str * stats => let '(_, explicit, buf, local) := x in
            (match explicit with Some e => 0 < e | None => True end) /\
            scol local = 0 /\ sread st < sread local /\
            List.length buf < List.length (c :: r) /\
            (reads (c :: r) st buf local \/
             (buf = [] /\ exists st1, reads (c :: r) st [] st1 /\ local = supd st1 0 1 0)))
    True (block_header o (c :: r) st).
Proof.
  intros C. unfold block_header. eapply leaf_bind; [prim|]. intros _ _.
  eapply leaf_bind; [apply (adv1_leaf o (c :: r) st True); [discriminate|apply plain_byte_no_break, C|auto]|].
  intros [b1 st1] [R1 L1].
  eapply leaf_bind; [apply scan_headers_leaf|].
  intros [[[chomp explicit] b2] st2] [EX H2].
  eapply leaf_bind; [apply skip_blanks_leaf|].
  intros [b3 st3] (R3 & B3 & K3).
  eapply leaf_bind; [prim|]. intros _ _.
  destruct (is_wsZ b3) eqn:W; cbn [negb]; [|apply leaf_err; discriminate].
  assert (R2 : reads b1 st1 b2 st2).
  { destruct H2 as [H2|(b & t & -> & HB)]; [exact H2|]. exfalso.
    pose proof (header_plain _ HB) as PB.
    assert (NB : is_blank (b :: t) = false).
    { unfold header_byte, is_digit in HB. unfold is_blank, at_is. cbn [nth_error]. lia. }
    rewrite K3 in W; [|exact NB|unfold header_byte, is_digit in HB; unfold at_is; cbn [nth_error]; lia].
    unfold is_wsZ in W. rewrite NB, plain_byte_no_break in W by exact PB. discriminate. }
  assert (R := reads_trans _ _ _ _ _ _ (reads_trans _ _ _ _ _ _ R1 R2) R3).
  assert (LL : List.length b3 < List.length (c :: r) /\ sread st < sread st3).
  { apply reads_len in R as (X & Y & _). apply reads_len in R2. apply reads_len in R3. lia. }
  unfold is_wsZ in W. rewrite B3 in W. cbn [orb] in W.
  destruct (is_break b3) eqn:BR.
  - eapply leaf_bind; [eapply leaf_impl; [apply adv_line_leaf|intros a X; exact X|auto]|].
    intros [b4 st4] (-> & -> & BD). cbn [leaf].
    pose proof (reads_line b3 st3 BR BD) as R4.
    split; [exact EX|]. split; [reflexivity|].
    split; [rewrite supd_break; cbn; lia|]. split; [rewrite skipn_length; lia|].
    left. eapply reads_trans; eauto.
  - destruct b3 as [|x t]; [|discriminate]. cbn. split; [exact EX|].
    split; [reflexivity|]. split; [lia|]. split; [lia|].
    right. split; [reflexivity|]. exists st3. split; [exact R|reflexivity].
Qed.

Lemma detect_indent_leaf o buf st base_indent lines borrow :
  leaf o (fun x : nat * str * stats * nat * bool => let '(indent, buf', st', lines', borrow') := x in
            reads buf st buf' st' /\ base_indent < indent /\
            (buf = [] -> buf' = [] /\ st' = st /\ borrow' = borrow /\ (scol st = 0 -> indent = base_indent + 1)))
    True (detect_indent_level o buf st base_indent lines borrow).
Proof.
  unfold detect_indent_level.
  eapply leaf_bind.
  { apply (leaf_loop o _
      (fun x : str * stats * bool * nat * nat => let '(b, s, bo, _, ind) := x in
         reads buf st b s /\ (buf = [] -> b = [] /\ s = st /\ bo = borrow /\ (scol st = 0 -> ind = 0)))
      (fun x : str * stats * bool * nat * nat => let '(b, _, _, _, _) := x in List.length b)
      (fun x : str * stats * bool * nat * nat => let '(b, s, bo, _, ind) := x in
         reads buf st b s /\ (buf = [] -> b = [] /\ s = st /\ bo = borrow /\ (scol st = 0 -> ind = 0))));
      [|split; [constructor|auto]|unfold fuel_of; lia].
    intros [[[[b1 st1] bo] ln] ind] [R K]. unfold detect_body.
    eapply leaf_bind; [prim|]. intros _ _.
    eapply leaf_bind.
    { apply (leaf_loop o _
        (fun x : str * stats * bool => let '(b, s, bo') := x in
           reads buf st b s /\ List.length b <= List.length b1 /\ (b1 = [] -> b = [] /\ s = st1 /\ bo' = bo))
        (fun x : str * stats * bool => let '(b, _, _) := x in List.length b)
        (fun x : str * stats * bool => let '(b, s, bo') := x in
           reads buf st b s /\ List.length b <= List.length b1 /\ (b1 = [] -> b = [] /\ s = st1 /\ bo' = bo)));
        [|split; [exact R|split; [lia|auto]]|unfold fuel_of; lia].
      intros [[b2 st2] bo2] (R2 & L2 & K2). unfold detect_space_body.
      destruct (is_blank b2) eqn:BL; [|cbn; auto].
      eapply leaf_bind; [prim|]. intros _ _.
      destruct (at_is b2 0 9); [apply leaf_err; discriminate|].
      eapply leaf_bind; [apply (adv1_leaf o b2 st2 True (is_blank_nonempty _ BL) (is_blank_not_break _ BL)); auto|].
      intros [b3 st3] [R3 L3]. cbn [leaf]. split; [|exact L3].
      split; [eapply reads_trans; eauto|]. split; [lia|]. intros X. destruct (K2 X) as [-> _]. discriminate. }
    intros [[b2 st2] bo2] (R2 & L2 & K2).
    eapply leaf_bind; [prim|]. intros _ _.
    assert (F : buf = [] -> b2 = [] /\ st2 = st /\ bo2 = borrow /\
      (scol st = 0 -> (if Nat.ltb ind (scol st2) then scol st2 else ind) = 0)).
    { intros X. destruct (K X) as (K1 & -> & -> & K4). destruct (K2 K1) as (-> & -> & ->).
      repeat split; auto. intros Z. rewrite (K4 Z), Z. reflexivity. }
    destruct (is_break b2) eqn:BR; cbn [negb].
    - eapply leaf_bind; [apply (adv_line_leaf' o b2 st2 True BR); auto|].
      intros [b3 st3] [R3 L3]. cbn [leaf]. split; [|lia].
      split; [eapply reads_trans; eauto|]. intros X. destruct (F X) as [-> _]. discriminate.
    - cbn [leaf]. auto. }
  intros [[[[b1 st1] bo] ln] ind] [R K]. cbn [leaf]. split; [exact R|].
  split; [destruct (Nat.ltb ind (base_indent + 1)) eqn:E; lia|].
  intros X. destruct (K X) as (K1 & K2 & K3 & K4). repeat split; auto.
  intros Z. rewrite (K4 Z). replace (Nat.ltb 0 (base_indent + 1)) with true by lia. reflexivity.
Qed.

Lemma scan_indent_leaf o buf st lines indent :
  leaf o (fun x : str * stats * nat => let '(buf', st', _) := x in reads buf st buf' st')
    True (scan_indent o buf st lines indent).
Proof.
  unfold scan_indent. destruct (Nat.leb indent (scol st)); [constructor|].
  eapply leaf_bind; [prim|]. intros _ _.
  apply (leaf_loop o _ (fun x : str * stats * nat => let '(b, s, _) := x in reads buf st b s)
    (fun x : str * stats * nat => let '(b, _, _) := x in List.length b)); [|constructor|unfold fuel_of; lia].
  intros [[b1 st1] ln] R. unfold scan_indent_body.
  destruct (Nat.ltb (scol st1) indent && is_ws b1) eqn:C; [|exact R].
  apply andb_true_iff in C as [_ W].
  eapply leaf_bind with (P := fun x : str * stats * nat => let '(b, s, _) := x in
    reads buf st b s /\ List.length b < List.length b1).
  - destruct (at_is b1 0 32) eqn:SP.
    + assert (BL : is_blank b1 = true) by (unfold is_blank; rewrite SP; reflexivity).
      eapply leaf_bind; [apply (adv1_leaf o b1 st1 True (is_blank_nonempty _ BL) (is_blank_not_break _ BL)); auto|].
      intros [b2 st2] [R2 L2]. cbn [leaf]. split; [eapply reads_trans; eauto|exact L2].
    + destruct (at_is b1 0 9) eqn:TB; [apply leaf_err; discriminate|].
      destruct (is_break b1) eqn:BR.
      * eapply leaf_bind; [apply (adv_line_leaf' o b1 st1 True BR); auto|].
        intros [b2 st2] [R2 L2]. cbn [leaf]. split; [eapply reads_trans; eauto|exact L2].
      * exfalso. unfold is_ws, is_blank in W. rewrite SP, TB, BR in W. discriminate.
  - intros [[b2 st2] ln2] [R2 L2]. cbn [fst].
    eapply leaf_bind; [prim|]. intros _ _. cbn [leaf]. auto.
Qed.

Lemma block_line_leaf o s :
  leaf o (fun s' => reads (f_buf s) (f_st s) (f_buf s') (f_st s') /\ is_breakZ (f_buf s') = true /\
            f_bor s' = f_bor s)
    True (loop (fuel_of (f_buf s)) (block_line_body o) s).
Proof.
  apply (leaf_loop o _ (fun s' => reads (f_buf s) (f_st s) (f_buf s') (f_st s') /\ f_bor s' = f_bor s)
    (fun s' => List.length (f_buf s'))); [|split; [constructor|reflexivity]|unfold fuel_of; lia].
  intros s1 [R BO]. unfold block_line_body. destruct (is_breakZ (f_buf s1)) eqn:BZ; [cbn; auto|].
  eapply leaf_bind; [prim|]. intros _ _.
  destruct (push_head_buf s1) as (E1 & E2 & E3).
  assert (NE : f_buf s1 <> []) by (intros E; rewrite E in BZ; discriminate).
  assert (NB : is_break (f_buf s1) = false) by (unfold is_breakZ in BZ; destruct (is_break (f_buf s1)); [discriminate|reflexivity]).
  unfold f_adv. rewrite E1, E2.
  eapply leaf_bind; [eapply leaf_bind; [apply (adv1_leaf o (f_buf s1) (f_st s1) True NE NB); auto|]|].
  { intros [b st] H. apply leaf_ok with (P := fun s' : fstate => reads (f_buf s1) (f_st s1) (f_buf s') (f_st s') /\
      List.length (f_buf s') < List.length (f_buf s1) /\ f_bor s' = f_bor s1). cbn. rewrite E3. tauto. }
  intros s2 (R2 & L2 & B2). cbn [leaf]. split; [|exact L2].
  split; [eapply reads_trans; eauto|congruence].
Qed.

Lemma f_adv_line_leaf o s : is_break (f_buf s) = true ->
  leaf o (fun s' => reads (f_buf s) (f_st s) (f_buf s') (f_st s') /\
                    List.length (f_buf s') < List.length (f_buf s)) True (f_adv_line s).
Proof.
  intros B. unfold f_adv_line. eapply leaf_bind; [apply (adv_line_leaf' o _ (f_st s) True B); auto|].
  intros [b st] H. exact H.
Qed.

(** One line of content. *)
Lemma block_body_leaf o base st0 indent fold b :
  leaf o (fun x => match x with
                   | Next b' => reads (f_buf (b_f b)) (f_st (b_f b)) (f_buf (b_f b')) (f_st (b_f b')) /\
                                List.length (f_buf (b_f b')) < List.length (f_buf (b_f b))
                   | Done b' => b' = b
                   end) True (block_body o base st0 indent fold b).
Proof.
  unfold block_body.
  destruct (Nat.eqb (scol (f_st (b_f b))) indent && negb (is_empty (f_buf (b_f b)))) eqn:C; [|reflexivity].
  apply andb_true_iff in C as [_ NE].
  eapply leaf_bind with (P := fun s : fstate => f_buf s = f_buf (b_f b) /\ f_st s = f_st (b_f b)).
  { destruct (_ && _); [|cbn; auto].
    unfold slice. destruct (_ && _); cbn; auto. }
  intros s1 [E1 S1].
  match goal with |- context [cache o (f_buf ?x) 1] => set (s2 := x) end.
  assert (E2 : f_buf s2 = f_buf (b_f b) /\ f_st s2 = f_st (b_f b)).
  { unfold s2. destruct fold; [destruct (b_lines b) as [|[|n]]|]; cbn; auto. }
  destruct E2 as [E2 S2].
  eapply leaf_bind; [prim|]. intros _ _.
  eapply leaf_bind; [apply block_line_leaf|].
  intros s3 (R3 & BZ & _). rewrite E2, S2 in R3.
  eapply leaf_bind; [prim|]. intros _ _.
  eapply leaf_bind with (P := fun x : fstate * nat => let '(s, _) := x in
    reads (f_buf (b_f b)) (f_st (b_f b)) (f_buf s) (f_st s) /\
    List.length (f_buf s) < List.length (f_buf (b_f b))).
  { destruct (is_break (f_buf s3)) eqn:BR.
    - eapply leaf_bind; [apply f_adv_line_leaf, BR|]. intros s4 [R4 L4]. cbn [leaf].
      split; [eapply reads_trans; eauto|]. apply reads_len in R3. lia.
    - cbn [leaf]. split; [exact R3|]. unfold is_breakZ in BZ. rewrite BR in BZ. cbn in BZ.
      destruct (f_buf s3); [|discriminate]. destruct (f_buf (b_f b)); [discriminate|cbn; lia]. }
  intros [s4 ln] [R4 L4].
  eapply leaf_bind; [apply scan_indent_leaf|].
  intros [[b5 st5] ln5] R5. cbn [leaf b_f f_buf f_st].
  split; [eapply reads_trans; eauto|]. apply reads_len in R5. lia.
Qed.

Lemma scan_chomp_leaf o base scratch borrow style start end_ lines :
  leaf o (fun _ => True) True (scan_chomp base scratch borrow style start end_ lines).
Proof.
  assert (SL : forall s a b, leaf o (fun _ : str => True) True (slice s a b)).
  { intros s a b. unfold slice. destruct (_ && _); exact Logic.I. }
  assert (U : forall s, leaf o (fun _ : cow => True) True (let* t := utf8_unwrap s in Ok (Owned t))).
  { intros s. unfold utf8_unwrap. destruct (valid_utf8 s); exact Logic.I. }
  unfold scan_chomp. destruct borrow; [|apply U].
  destruct style.
  - eapply leaf_bind with (P := fun _ => True).
    { destruct lines; [exact Logic.I|]. eapply leaf_bind; [apply SL|]. intros; exact Logic.I. }
    intros e _. eapply leaf_bind; [apply SL|]. intros; exact Logic.I.
  - eapply leaf_bind; [apply SL|]. intros; exact Logic.I.
  - destruct lines as [|[|n]].
    + eapply leaf_bind; [apply SL|]. intros; exact Logic.I.
    + eapply leaf_bind; [apply SL|]. intros; exact Logic.I.
    + eapply leaf_bind; [apply SL|]. intros; apply U.
Qed.

(** Empty contents cannot be borrowed. *)
Lemma scan_chomp_empty base style start : 0 < start ->
  scan_chomp base [] true style start 0 0 = Panic.
Proof.
  intros S. assert (L : Nat.leb start 0 = false) by lia. unfold scan_chomp, slice.
  destruct style; cbn [bind]; rewrite ?Nat.add_0_r, L; reflexivity.
Qed.

Lemma scan_block_eager_leaf o c r st base_indent (fold : bool) : plain_byte c ->
  leaf o (fun x : token * nat * stats => let '(tok, amt, st') := x in
            0 < amt <= List.length (c :: r) /\ reads (c :: r) st (skipn amt (c :: r)) st' /\
            exists t, tok = TScalar t (if fold then Folded else Literal))
    True (scan_block_scalar_eager o (c :: r) st base_indent fold).
Proof.
  intros C. unfold scan_block_scalar_eager.
  eapply leaf_bind; [apply block_header_leaf, C|].
  intros [[[chomp explicit] buf] local] (EX & CO & RD & LB & H).
  (* nothing after the header line: the text is not borrowable *)
  destruct H as [R|(-> & _)].
  2: { eapply leaf_bind with (P := fun x : nat * str * stats * nat * bool =>
         let '(indent, buf, local', _, borrow) := x in
         0 < indent /\ buf = [] /\ local' = local /\ borrow = true).
       - destruct explicit as [e|]; [cbn; repeat split; lia|].
         eapply leaf_impl; [apply detect_indent_leaf| |auto].
         intros [[[[ind b] s] ln] bo] (_ & I & K). destruct (K eq_refl) as (-> & -> & -> & _).
         repeat split; lia.
       - intros [[[[ind b] s] ln] bo] (I & -> & -> & ->).
         unfold fuel_of. cbn [List.length loop]. unfold block_body at 1.
         cbn [b_f f_st f_buf is_empty negb]. rewrite andb_false_r. cbn [bind b_f f_scr f_bor b_start b_end b_lines].
         rewrite scan_chomp_empty by lia. exact Logic.I. }
  eapply leaf_bind with (P := fun x : nat * str * stats * nat * bool =>
     let '(indent, buf, local, _, borrow) := x in
     reads (c :: r) st buf local /\ List.length buf < List.length (c :: r)).
  { destruct explicit as [e|]; [cbn [leaf]; auto|].
    eapply leaf_impl; [apply detect_indent_leaf| |auto].
    intros [[[[ind b] s] ln] bo] (R1 & _). split; [eapply reads_trans; eauto|].
    apply reads_len in R1. lia. }
  intros [[[[ind b] s] ln] bo] [R1 L1].
  assert (G : forall start scratch, leaf o (fun x : token * nat * stats => let '(tok, amt, st') := x in
            0 < amt <= List.length (c :: r) /\ reads (c :: r) st (skipn amt (c :: r)) st' /\
            exists t, tok = TScalar t (if fold then Folded else Literal)) True
     (let* b0 := loop (fuel_of (c :: r)) (block_body o (c :: r) st ind fold) (mkB (mkF b s scratch bo) start 0 0) in
      let s0 := b_f b0 in
      let* text := scan_chomp (c :: r) (f_scr s0) (f_bor s0) chomp (b_start b0) (b_end b0) (b_lines b0) in
      Ok (TScalar text (if fold then Folded else Literal), consumed (c :: r) (f_buf s0), f_st s0))).
  { intros start scratch.
    eapply leaf_bind.
    { apply (leaf_loop o _
        (fun b' => reads (c :: r) st (f_buf (b_f b')) (f_st (b_f b')) /\ List.length (f_buf (b_f b')) < List.length (c :: r))
        (fun b' => List.length (f_buf (b_f b')))
        (fun b' => reads (c :: r) st (f_buf (b_f b')) (f_st (b_f b')) /\ List.length (f_buf (b_f b')) < List.length (c :: r)));
        [|cbn [b_f f_buf f_st]; auto|cbn [b_f f_buf]; unfold fuel_of; lia].
      intros b' [R' L']. eapply leaf_impl; [apply block_body_leaf| |auto].
      intros [b2|b2] H.
      - destruct H as [H HL]. split; [|exact HL]. split; [eapply reads_trans; eauto|lia].
      - subst b2. auto. }
    intros b' [R' L']. cbv zeta.
    eapply leaf_bind; [apply scan_chomp_leaf|]. intros text _. cbn [leaf].
    destruct (reads_consumed _ _ _ _ R') as [E1 E2]. rewrite E1.
    split; [unfold consumed; lia|]. split; [exact R'|eexists; reflexivity]. }
  destruct bo; apply G.
Qed.

Lemma scan_block_lazy_leaf o c r st base_indent fold : plain_byte c ->
  leaf o (fun x : deferred * nat * stats => let '(d, amt, st') := x in
            0 < amt <= List.length (c :: r) /\ reads_eof (c :: r) st (skipn amt (c :: r)) st' /\
            d = DBlock o (firstn amt (c :: r)) st base_indent fold)
    True (scan_block_scalar_lazy o (c :: r) st base_indent fold).
Proof.
  intros C. unfold scan_block_scalar_lazy.
  eapply leaf_bind; [apply block_header_leaf, C|].
  intros [[[chomp explicit] buf] local] (EX & CO & RD & LB & H).
  eapply leaf_bind with (P := fun x : nat * str * stats =>
     let '(indent, b, s) := x in
     reads buf local b s /\ List.length b < List.length (c :: r)).
  { destruct explicit as [e|]; [cbn [leaf]; split; [constructor|lia]|].
    eapply leaf_bind; [apply detect_indent_leaf|].
    intros [[[[ind b] s] ln] bo] (R1 & _). cbn [leaf]. split; [exact R1|].
    apply reads_len in R1. lia. }
  intros [[ind b] s] [R1 L1].
  eapply leaf_bind.
  { apply (leaf_loop o _
      (fun x : str * stats => let '(b', s') := x in
         reads buf local b' s' /\ List.length b' < List.length (c :: r))
      (fun x : str * stats => List.length (fst x))
      (fun x : str * stats => let '(b', s') := x in
         reads buf local b' s' /\ List.length b' < List.length (c :: r)));
      [|auto|cbn [fst]; unfold fuel_of; lia].
    intros [b2 s2] [R2 L2]. unfold block_lazy_body.
    destruct (Nat.eqb (scol s2) ind && negb (is_empty b2)) eqn:CC; [|cbn; auto].
    apply andb_true_iff in CC as [_ NE].
    eapply leaf_bind; [prim|]. intros _ _.
    eapply leaf_bind; [apply (block_line_leaf o (mkF b2 s2 [] true))|].
    intros f3 (R3 & BZ & _). cbn [f_buf f_st] in R3.
    eapply leaf_bind; [prim|]. intros _ _.
    eapply leaf_bind with (P := fun f : fstate => reads b2 s2 (f_buf f) (f_st f) /\ List.length (f_buf f) < List.length b2).
    { destruct (is_break (f_buf f3)) eqn:BR.
      - eapply leaf_impl; [apply f_adv_line_leaf, BR| |auto]. intros f4 [R4 L4].
        split; [eapply reads_trans; eauto|]. apply reads_len in R3. lia.
      - cbn [leaf]. split; [exact R3|]. unfold is_breakZ in BZ. rewrite BR in BZ. cbn in BZ.
        destruct (f_buf f3); [|discriminate]. destruct b2; [discriminate|cbn; lia]. }
    intros f4 [R4 L4].
    eapply leaf_bind; [apply scan_indent_leaf|].
    intros [[b5 s5] ln5] R5. cbn [leaf fst].
    assert (L5 : List.length b5 < List.length b2) by (apply reads_len in R5; lia).
    split; [|exact L5]. split; [|lia].
    eapply reads_trans; [exact R2|]. eapply reads_trans; [exact R4|exact R5]. }
  intros [b2 s2] [R2 L2]. cbv zeta.
  assert (RE : reads_eof (c :: r) st b2 s2).
  { destruct H as [R|(-> & st1 & R & ->)].
    - left. eapply reads_trans; eauto.
    - right.
      assert (FX : b2 = [] /\ s2 = supd st1 0 1 0).
      { clear -R2. inversion R2 as [|x n ? ? ? Ln NB BD R3|x ? ? ? BR]; subst; [auto| |discriminate].
        destruct n as [|n]; [|cbn in Ln; lia]. cbn in R3.
        remember [] as e. clear -R2 Heqe. subst e.
        assert (Q : forall a sa b sb, reads a sa b sb -> a = [] -> b = [] /\ sb = sa).
        { clear. induction 1 as [|s n st s' st' L NB B R IH|s st s' st' B BD R IH]; intros ->; [auto| |discriminate].
          destruct n; [|cbn in L; lia]. cbn in IH. destruct (IH eq_refl) as [-> ->]. split; [reflexivity|].
          destruct st as [a b d]. cbn. rewrite !Nat.add_0_r. reflexivity. }
        apply (Q _ _ _ _ R2 eq_refl). }
      destruct FX as [-> ->]. split; [reflexivity|]. exists st1. auto. }
  assert (BD : is_boundary (c :: r) (consumed (c :: r) b2) = true /\ skipn (consumed (c :: r) b2) (c :: r) = b2).
  { destruct RE as [R|(-> & st1 & R & _)]; (split; [exact (reads_boundary _ _ _ _ R)|apply reads_consumed in R; apply R]). }
  destruct BD as [BD SK].
  unfold slice. cbn [Nat.leb andb is_boundary skipn]. rewrite BD, Nat.sub_0_r. cbn [bind leaf].
  rewrite SK. split; [unfold consumed; lia|]. auto.
Qed.

Definition block_token (m : maybe_token) : Prop :=
  match m with
  | Tok (TScalar _ (Folded | Literal)) => True
  | Lazy (DBlock _ _ _ _ _) => True
  | _ => False
  end.
Lemma scan_block_leaf o b r st c fold : plain_byte b ->
  leaf o (fun x : maybe_token * nat * stats => let '(tok, amt, st') := x in
            0 < amt <= List.length (b :: r) /\
            reads_eof (b :: r) st (skipn amt (b :: r)) st' /\ block_token tok /\
            (lazy_mode o = false -> reads (b :: r) st (skipn amt (b :: r)) st'))
    True (scan_block_scalar o (b :: r) st c fold).
Proof.
  intros B. unfold scan_block_scalar. destruct (lazy_mode o).
  - eapply leaf_bind; [apply scan_block_lazy_leaf, B|].
    intros [[d amt] st'] (A & R & ->). cbn [leaf]. split; [exact A|]. split; [exact R|].
    split; [exact Logic.I|discriminate].
  - eapply leaf_bind; [apply scan_block_eager_leaf, B|].
    intros [[d amt] st'] (A & R & t & ->). cbn [leaf]. split; [exact A|]. split; [left; exact R|].
    split; [destruct fold; exact Logic.I|auto].
Qed.
