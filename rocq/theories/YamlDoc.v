(** Whole documents: from the rounds of the scanner to the events. *)
From Verif Require Export YamlMark.
From Verif Require Import StreamFacts.
From Verif Require Import SpecYaml.
From Coq Require Import Lia ZifyBool ZifyN ZifyNat.
Open Scope nat_scope.

(** ** From rounds to calls of the scanner *)
Definition advances (o : flags) (b : str) (sc : scanner) (es : list entry) (b' : str) (sc' : scanner) : Prop :=
  forall n q, scan_next_token o (mkMs b (set_offset n sc) q) = (mkMs b' (set_offset n sc') (pushes es q), Ok tt).
Inductive path (o : flags) : str -> scanner -> list entry -> scanner -> Prop :=
| path_done b sc : sc_state sc = SDone -> path o b sc [] sc
| path_step b sc es b1 sc1 fs sc2 : sc_state sc <> SDone -> advances o b sc es b1 sc1 -> path o b1 sc1 fs sc2 -> path o b sc (es ++ fs) sc2.

Lemma turn_advances o g es g' n : turn o g es g' -> advances o (text (g_place g)) (scan_of n g) es (text (g_place g')) (scan_of n g').
Proof. intros T m q. exact (T m q). Qed.
Lemma run_path o n g es g' : run o g es g' -> forall fs sc2, path o (text (g_place g')) (scan_of n g') fs sc2 ->
  path o (text (g_place g)) (scan_of n g) (es ++ fs) sc2.
Proof.
  induction 1 as [g|g es g1 fs g2 T R IH]; intros gs sc2 P; [exact P|].
  rewrite <- app_assoc. eapply path_step; [discriminate|apply turn_advances, T|]. apply IH, P.
Qed.
Lemma pushes_inj a b : pushes a q_new = pushes b q_new -> a = b.
Proof. intros E. apply (f_equal (fun q => map snd (q_heap q))) in E. rewrite !pushes_heap in E. exact E. Qed.

(** The scanner up to its offset. *)
Definition same (sc sc' : scanner) : Prop := exists n, sc' = set_offset n sc.
Lemma same_path o b sc sc' es sc2 : same sc sc' -> path o b sc es sc2 -> exists sc3, path o b sc' es sc3 /\ same sc2 sc3.
Proof.
  intros (n & ->) P. revert n. induction P as [b sc D|b sc es b1 sc1 fs sc2 ND A P IH]; intros n.
  - exists (set_offset n sc). split; [apply path_done; exact D|exists n; reflexivity].
  - destruct (IH n) as (sc3 & P3 & S3). exists sc3. split; [|exact S3]. eapply path_step; [exact ND| |exact P3].
    intros m q. exact (A m q).
Qed.

Lemma round_of_path o t h b sc es fs b1 sc1 sc2 : inv o t h b sc -> stands t b sc -> begun sc -> sc_state sc <> SDone ->
  advances o b sc es b1 sc1 -> path o b1 sc1 fs sc2 ->
  exists sc1' sc3, (forall q, scan_round o t sc q = (sc1', pushes es q, Ok tt)) /\ inv o t (h ++ es) b1 sc1' /\ stands t b1 sc1' /\ begun sc1' /\
    path o b1 sc1' fs sc3 /\ same sc2 sc3 /\ es <> [].
Proof.
  intros I G B ND A P. destruct (wp_round o b sc (i_valid _ _ _ _ _ I) ND) as (es' & b' & sc' & r & E & O).
  assert (X : forall q, scan_next_token o (mkMs b sc q) = (mkMs b1 (set_offset (sc_offset sc) sc1) (pushes es q), Ok tt)).
  { intros q. pose proof (A (sc_offset sc) q) as Y. assert (set_offset (sc_offset sc) sc = sc) as Z by (destruct sc; reflexivity). rewrite Z in Y. exact Y. }
  pose proof (E q_new) as E0. rewrite X in E0. injection E0 as <- <- EQ <-. apply pushes_inj in EQ as <-. cbn in O.
  destruct (same_path o b1 sc1 (set_offset (List.length t - List.length b1) sc1) fs sc2 ltac:(eexists; reflexivity) P) as (sc3 & P3 & S3).
  exists (set_offset (List.length t - List.length b1) sc1), sc3.
  pose proof (round_inv o t _ _ _ _ _ O h I B) as I'.
  split; [intros q; unfold scan_round; rewrite G, X; reflexivity|].
  split; [apply (inv_offset _ _ _ _ _ (List.length t - List.length b1)) in I'; exact I'|]. split.
  { unfold stands, get_from. cbn. destruct (i_suffix _ _ _ _ _ I') as (n & -> & BD).
    rewrite skipn_length. pose proof (boundary_le _ _ BD) as LE.
    replace (List.length t - (List.length t - n)) with n by lia. rewrite BD. reflexivity. }
  split; [intros Y; destruct (round_state _ _ _ _ _ _ O Y)|].
  split; [exact P3|]. split; [exact S3|]. eapply round_some; eauto.
Qed.

Lemma loop_of_path o t : forall fuel h b sc es sc2, inv o t h b sc -> stands t b sc -> begun sc -> path o b sc es sc2 ->
  forall start q, exists es1 es2 sc1 b1 sc3 r, scan_loop fuel o t start sc q = (sc1, pushes es1 q, r) /\
    (r = Fuel \/ r = Ok tt /\ es = es1 ++ es2 /\ inv o t (h ++ es1) b1 sc1 /\ stands t b1 sc1 /\ begun sc1 /\ path o b1 sc1 es2 sc3 /\ same sc2 sc3).
Proof.
  induction fuel as [|fuel IH]; intros h b sc es sc2 I G B P start q; cbn [scan_loop].
  - destruct (want_more start sc q).
    + exists [], [], sc, b, sc2, Fuel. split; [reflexivity|]. left. reflexivity.
    + exists [], es, sc, b, sc2, (Ok tt). split; [reflexivity|]. right. rewrite app_nil_r.
      repeat (split; [first [reflexivity|assumption]|]). exists (sc_offset sc2). destruct sc2; reflexivity.
  - destruct (want_more start sc q) eqn:W.
    + destruct P as [b sc D|b sc es b1 sc1 fs sc2 ND A P].
      * unfold want_more in W. rewrite D in W. discriminate.
      * destruct (round_of_path _ _ _ _ _ _ _ _ _ _ I G B ND A P) as (sc1' & sc3 & R & I' & G' & B' & P' & S' & N').
        rewrite R. destruct (IH _ _ _ _ _ I' G' B' P' start (pushes es q)) as (e1 & e2 & sc4 & b4 & sc5 & r & E & [->|(-> & EQ & I4 & G4 & B4 & P4 & S4)]).
        { exists (es ++ e1), [], sc4, b4, sc5, Fuel. rewrite E, pushes_app. split; [reflexivity|left; reflexivity]. }
        exists (es ++ e1), e2, sc4, b4, sc5, (Ok tt). rewrite E, pushes_app. split; [reflexivity|]. right.
        split; [reflexivity|]. rewrite EQ, app_assoc. split; [reflexivity|]. rewrite (app_assoc h). repeat (split; [assumption|]).
        destruct S' as (n & ->), S4 as (m & ->). exists m. reflexivity.
    + exists [], es, sc, b, sc2, (Ok tt). split; [reflexivity|]. right. rewrite app_nil_r.
      repeat (split; [first [reflexivity|assumption]|]). exists (sc_offset sc2). destruct sc2; reflexivity.
Qed.

Lemma path_some o b sc es sc2 h t : inv o t h b sc -> stands t b sc -> begun sc -> path o b sc es sc2 -> es = [] -> sc_state sc = SDone.
Proof.
  intros I G B P E. destruct P as [b sc D|b sc es b1 sc1 fs sc2 ND A P]; [exact D|].
  destruct (round_of_path _ _ _ _ _ _ _ _ _ _ I G B ND A P) as (_ & _ & _ & _ & _ & _ & _ & _ & N). apply app_eq_nil in E as [-> _]. congruence.
Qed.

Lemma path_calls o t : extendable o = false -> valid t -> forall n k h sc b es sc2, List.length es <= n ->
  calls o t k = (h, sc, Ok tt) -> inv o t h b sc -> stands t b sc -> begun sc -> path o b sc es sc2 ->
  exists k' sc3, calls o t k' = (h ++ es, sc3, Ok tt) /\ sc_state sc3 = SDone.
Proof.
  intros NE V. induction n as [|n IH]; intros k h sc b es sc2 L C I G B P.
  - assert (es = []) as -> by (destruct es; [reflexivity|cbn in L; lia]).
    exists k, sc. rewrite app_nil_r. split; [exact C|]. eapply path_some; eauto.
  - destruct es as [|x es0]; [exists k, sc; rewrite app_nil_r; split; [exact C|]; eapply path_some; eauto|].
    remember (x :: es0) as es eqn:EE.
    pose proof (calls_good o t (S k) NE V) as [GD _]. cbn [calls] in GD. rewrite C in GD.
    destruct (loop_of_path o t (List.length t + 3) h b sc es sc2 I G B P (q_len (@q_new entry)) q_new) as (e1 & e2 & sc1 & b1 & sc3 & r & E & R).
    assert (BA : batch o t sc = (e1, sc1, r)). { unfold batch, scan_tokens. rewrite E, pushes_heap. reflexivity. }
    rewrite BA in GD. destruct R as [->|(-> & EQ & I1 & G1 & B1 & P1 & S1)]; [destruct GD|].
    assert (C1 : calls o t (S k) = (h ++ e1, sc1, Ok tt)) by (cbn [calls]; rewrite C, BA; reflexivity).
    assert (N1 : e1 <> []).
    { intros ->. pose proof (batch_spec o t h b sc NE I G B) as BS. rewrite BA in BS. destruct BS as (_ & _ & _ & _ & _ & _ & D & _). specialize (D eq_refl).
      cbn [app] in EQ. subst e2. inversion P1; subst; [discriminate|contradiction]. }
    destruct (IH (S k) (h ++ e1) sc1 b1 e2 sc3) as (k' & sc4 & C' & D'); auto.
    { subst es. rewrite EQ in L. rewrite app_length in L. destruct e1; [congruence|]. cbn in L. lia. }
    exists k', sc4. rewrite EQ, app_assoc. auto.
Qed.

(** ** The end of the text *)
Lemma pops_count col : forall l i, let '(_, r, n) := pop_indents l i col in n + List.length r = List.length l.
Proof.
  induction l as [|e l IH]; intros i; cbn [pop_indents]; [destruct (indent_gt i col); reflexivity|].
  destruct (indent_gt i col); [|reflexivity]. specialize (IH (ie_indent e)). destruct (pop_indents l (ie_indent e) col) as [[i' r] n]. cbn [List.length]. lia.
Qed.
Lemma pops_none : forall l i, exists i', pop_indents l i None = (i', [], List.length l).
Proof.
  induction l as [|e l IH]; intros i; cbn [pop_indents indent_gt]; [eauto|]. destruct (IH (ie_indent e)) as (i' & ->). eauto.
Qed.
Lemma unrolled_count c st : snd (unrolled c st) + List.length (c_indents (fst (unrolled c st))) = List.length (c_indents c) /\ c_flow (fst (unrolled c st)) = c_flow c.
Proof.
  unfold unrolled, indent_decrement. destruct (is_block c); [|split; reflexivity].
  pose proof (pops_count (Some (scol st)) (c_indents c) (c_indent c)) as P. destruct (pop_indents _ _ _) as [[i r] n]. split; [exact P|reflexivity].
Qed.
Lemma dropped_count c st b : snd (dropped c st b) + List.length (c_indents (fst (dropped c st b))) = List.length (c_indents c) /\ c_flow (fst (dropped c st b)) = c_flow c.
Proof.
  unfold dropped. destruct (c_indents c) as [|e r] eqn:E; [rewrite ?E; split; cbn [fst snd]; rewrite ?E; reflexivity|].
  destruct (_ && _); [unfold pop_indent; rewrite E; split; reflexivity|]. cbn [fst snd]. rewrite E. split; reflexivity.
Qed.
Lemma end_turn o p p0 ska key c n : extendable o = false -> all_ascii (text p) -> apart p p0 -> text p0 = [] -> easy key -> c_flow c = 0 ->
  exists sc', sc_state sc' = SDone /\
    advances o (text p) (scan_of n (mkCfg p ska key c)) (ends (List.length (c_indents c)) (offset p0) ++ [mkEntry (Tok TStreamEnd) (offset p0)]) [] sc'.
Proof.
  intros NE A AP E K F.
  destruct (unrolled_count c (snd p0)) as [U1 U2]. destruct (dropped_count (fst (unrolled c (snd p0))) (snd p0) (text p0)) as [D1 D2].
  set (c2 := fst (dropped (fst (unrolled c (snd p0))) (snd p0) (text p0))) in *.
  destruct (pops_none (c_indents c2) (c_indent c2)) as (i' & PN).
  exists (mkSc n SDone (ska || (line p <? line p0)) (snd p0) None (mkCxt 0 i' [] (c_started c2))). split; [reflexivity|].
  intros m q. pose proof (settles o p p0 m ska key c q NE A AP (easy_timely _ _ K)) as ST. cbv zeta in ST. fold c2 in ST. assert (EM : is_empty (text p0) = true) by (rewrite E; reflexivity). rewrite EM in ST.
  etransitivity; [exact ST|]. unfold state_of, scan_of. cbn [g_place g_ska g_key g_cxt]. rewrite E.
  unfold fetch_stream_end. steps. cbn [is_empty].
  assert (F2 : c_flow c2 = 0) by congruence.
  assert (BL : is_block c2 = true) by (unfold is_block, is_flow; rewrite F2; reflexivity).
  assert (E2 : forall q, unroll_indent None (mkMs [] (mkSc m SStream (ska || (line p <? line p0)) (snd p0) (expired (snd p0) key) c2) q) =
    (mkMs [] (mkSc m SStream (ska || (line p <? line p0)) (snd p0) (expired (snd p0) key) (mkCxt 0 i' [] (c_started c2))) (pushes (ends (List.length (c_indents c2)) (offset p0)) q), Ok tt)).
  { intros q1. unfold unroll_indent. steps. rewrite BL. unfold indent_decrement. rewrite BL, PN, F2. steps. apply enqueue_ends_pushes. }
  erewrite run_bind by apply E2. erewrite run_bind by (apply remove_easy, easy_expired, K). unfold enqueue_here. steps. unfold enqueue.
  assert (EA : forall a b x, ends a x ++ ends b x = ends (a + b) x) by (intros; unfold ends; symmetry; apply repeat_app).
  cbn [m_buf m_sc m_q]. rewrite <- pushes_app, EA.
  rewrite E in D1. replace (_ + _ + _) with (List.length (c_indents c)) by (clear - U1 D1; lia).
  rewrite pushes_app. reflexivity.
Qed.

Lemma shaped_len used c L : shaped used c L -> List.length (c_indents c) = List.length L.
Proof.
  intros (_ & _ & S & _). revert L S. generalize (c_indents c). induction l as [|e l IH]; intros [|[n k] L] S; cbn in *; try tauto. f_equal. apply IH, S.
Qed.
Lemma shaped_ground used c L : shaped used c L -> level_ground c.
Proof.
  intros (F & I & S & _). split; [exact F|]. rewrite I. clear F I. revert L S. generalize (c_indents c).
  induction l as [|e l IH]; intros [|[n k] L] S; cbn in *; try tauto. destruct S as [(E & _) S]. rewrite E. apply IH, S.
Qed.

Lemma props_starting known ab pre block ts : dressed known ab pre -> ~ plainly ab -> starting block (pre ++ ts).
Proof.
  intros (a & g & _ & _ & _ & _ & E & I) NP. destruct (I ltac:(intros ->; apply NP, E; reflexivity) ts) as (m & AH & IN). exists m. split; [exact AH|]. cbn [In] in *. tauto.
Qed.

(** ** The content of a document *)
Lemma deeper_around (used st : bool) n : (st = true -> used = true) -> deeper (around used) n -> deeper (around st) n.
Proof. intros U. destruct st; [rewrite (U eq_refl); exact (fun x => x)|intros; exact Logic.I]. Qed.
Lemma indent_around a b : indent_of (around a) = indent_of (around b).
Proof. destruct a, b; reflexivity. Qed.
Lemma parent_around a b : parent_of (around a) = parent_of (around b).
Proof. destruct a, b; reflexivity. Qed.
Lemma leaf_around handles (used st : bool) ab p e p' f : (st = true -> used = true) ->
  leaf_body handles (around used) ab p e p' f -> leaf_body handles (around st) ab p e p' f.
Proof.
  intros U B. inversion B; subst.
  - eapply lb_atom; [eassumption|eapply deeper_around; eassumption|]. rewrite (indent_around st used). assumption.
  - eapply lb_seq; [eassumption|eapply deeper_around; eassumption|..]; eassumption.
  - eapply lb_map; [eassumption|eapply deeper_around; eassumption|..]; eassumption.
  - eapply lb_block; try eassumption; [eapply deeper_around; eassumption|]. rewrite (parent_around st used). assumption.
Qed.
Lemma body_around handles (used st : bool) ab p e p' f : (st = true -> used = true) ->
  block_body handles (around used) ab p e p' f -> block_body handles (around st) ab p e p' f.
Proof.
  intros U B. inversion B; subst.
  - apply bb_leaf. eapply leaf_around; eassumption.
  - eapply bb_seq; try eassumption. eapply deeper_around; eassumption.
  - eapply bb_map; try eassumption; [eapply deeper_around; eassumption|]. rewrite (indent_around st used). assumption.
  - eapply bb_question; try eassumption. eapply deeper_around; eassumption.
Qed.

Section Documents.
  Variable o : flags.
  Hypothesis (NE : extendable o = false) (NL : lazy_mode o = false).

  Lemma content_tokens (handles known : str -> Prop) start used p e p' used' st ska key :
    (forall h, handles h -> known h) -> content handles start used p e p' used' -> all_ascii (text p) ->
    (start = true -> ska = true) -> easy key -> (st = true -> used = true) ->
    exists es ska' key' c', run o (mkCfg p ska key (mkCxt 0 0 [] st)) es (mkCfg p' ska' key' c') /\ easy key' /\ level_ground c' /\
      (c_started c' = true -> used' = true) /\ moves p p' /\ within (offset p) (offset p') es /\
      forall rest, ahead_not rest (MAnchor :: MTag :: starters true) ->
        starting true (toks es ++ blockends (List.length (c_indents c')) ++ rest) /\
        exists evs, said evs e /\ t_node known true Root (toks es ++ blockends (List.length (c_indents c')) ++ rest) evs rest.
  Proof.
    intros HK CN A SK K U.
    assert (SH0 : shaped st (mkCxt 0 0 [] st) []) by (repeat split).
    assert (FT : forall q p1 : place, within_column (around used) q -> moves p q -> line q <= line p1 -> deeper (cur st []) (column q) /\ steady [] (line q)).
    { intros q p1 D _ _. split; [exact (deeper_around used st _ U D)|exact Logic.I]. }
    destruct CN as [ab p1 e p' f PR BN|ab p1 p0 e p' f PR AP NLN BN|ab p' PR NP];
      destruct (props_block st o NE NL _ known HK _ _ _ _ _ [] _ ska key PR A SH0 (fun q => FT q _) K) as (es1 & ska1 & key1 & R1 & K1 & W1 & DR & EK & PL);
      pose proof (props_moves _ _ _ _ _ _ PR) as M1; pose proof (moves_order _ _ M1) as [B1 _].
    - destruct (leaf_all st o NE NL _ known HK _ _ _ _ _ _ (leaf_around _ _ _ _ _ _ _ _ U BN) (moves_ascii _ _ M1 A)) as [[M2 _] BL]. pose proof (moves_order _ _ M2) as [B2 _].
      destruct (BL [] ska1 key1 _ eq_refl SH0 K1) as (es & ska' & key' & R & K' & _ & WI & T); [intros; split; intros; exact Logic.I|].
      destruct (run_chain o (offset p1) (offset p) (offset p') _ _ _ _ _ R1 W1 R WI B1 B2) as (R2 & W2 & T2).
      eexists _, ska', key', _. split; [exact R2|]. split; [exact K'|]. split; [split; reflexivity|]. split; [exact U|]. split; [eauto using moves_trans|]. split; [exact W2|].
      intros rest _. cbn [c_indents List.length blockends repeat app]. rewrite T2, <- app_assoc. destruct (T _ rest DR) as [ST (evs & SA & TN)]. rewrite EK in TN. eauto.
    - destruct (proj1 (block_all st o NE NL _ known HK) _ _ _ _ _ _ (body_around _ _ _ _ _ _ _ _ U BN) (moves_ascii _ _ M1 A)) as [[M2 _] BL]. pose proof (moves_order _ _ M2) as [B2 _].
      destruct (BL [] ska1 key1 _ eq_refl SH0 K1) as (es & ska' & key' & c' & ext & R & K' & _ & SH & _ & WI & T).
      { intros P. destruct (PL P) as [-> ->]. destruct NLN as [E|E]; [left; apply SK, E|right]. intros q AQ. rewrite (apart_det _ _ _ AQ AP). exact E. }
      { intros; split; intros; exact Logic.I. }
      rewrite app_nil_r in SH.
      destruct (run_chain o (offset p1) (offset p) (offset p') _ _ _ _ _ R1 W1 R WI B1 B2) as (R2 & W2 & T2).
      eexists _, ska', key', c'. split; [exact R2|]. split; [exact K'|]. split; [eapply shaped_ground; eauto|]. split; [reflexivity|]. split; [eauto using moves_trans|]. split; [exact W2|].
      intros rest _. rewrite (shaped_len _ _ _ SH), T2, <- app_assoc. destruct (T _ rest DR) as [ST (evs & SA & TN)]. rewrite EK in TN. eauto.
    - destruct (dress_empty known ab _ DR NP) as (ev & SHW & TN).
      exists es1, ska1, key1, (mkCxt 0 0 [] st). split; [exact R1|]. split; [exact K1|]. split; [split; reflexivity|]. split; [exact U|]. split; [exact M1|]. split; [exact W1|].
      intros rest AH. cbn [c_indents List.length blockends repeat app]. split; [eapply props_starting; eauto|].
      exists [ev]. split; [unfold said; cbn [map]; rewrite SHW; reflexivity|]. rewrite <- EK. apply TN, AH.
  Qed.

  (** ** Directives *)
  Definition stands_for (d : SpecYaml.directive) (d' : SpecTokens.directive) : Prop :=
    match d, d' with
    | Version a b, DVersion a' b' => a' = a /\ b' = b
    | TagPrefix h s, DTag h' s' => cow_str h' = h /\ cow_str s' = s
    | _, _ => False
    end.
  Lemma directives_tokens p ds p1 : directive_list p ds p1 -> all_ascii (text p) -> forall ska key st, easy key ->
    exists es ska' key' ds', run o (mkCfg p ska key (mkCxt 0 0 [] st)) es (mkCfg p1 ska' key' (mkCxt 0 0 [] st)) /\ easy key' /\
      moves p p1 /\ within (offset p) (offset p1) es /\ toks es = map SpecTokens.directive_token ds' /\ Forall2 stands_for ds ds'.
  Proof.
    induction 1 as [p|p p0 d p1 ds p' AP DA DL IH]; intros A ska key st K.
    - exists [], ska, key, []. split; [constructor|]. split; [exact K|]. split; [constructor|]. split; [constructor|]. split; [reflexivity|constructor].
    - pose proof (apart_moves _ _ AP) as M0. pose proof (moves_ascii _ _ M0 A) as A0.
      destruct (directive_scanned o NE NL p0 d p1 A0 DA) as (_ & _ & _ & _ & _ & M1 & _).
      destruct (directive_step o NE NL p p0 d p1 A AP DA) as (tok & DT & TN). specialize (TN ska key (mkCxt 0 0 [] st) K (conj eq_refl eq_refl)). cbn [c_indents c_started List.length ends repeat app] in TN.
      pose proof (moves_ascii _ _ M1 A0) as A1. destruct (IH A1 false None st Logic.I) as (es & ska' & key' & ds' & R & K' & M2 & W & T & F).
      pose proof (moves_order _ _ M0) as [B0 _]. pose proof (moves_order _ _ M1) as [B1 _]. pose proof (moves_order _ _ M2) as [B2 _].
      assert (W1 : within (offset p) (offset p1) [mkEntry (Tok tok) (offset p1)]) by (repeat constructor; cbn; lia).
      assert (R1 : run o (mkCfg p ska key (mkCxt 0 0 [] st)) [mkEntry (Tok tok) (offset p1)] (mkCfg p1 false None (mkCxt 0 0 [] st))).
      { rewrite <- (app_nil_r [_]). eapply run_cons; [exact TN|constructor]. }
      destruct (run_chain o (offset p1) (offset p) (offset p') _ _ _ _ _ R1 W1 R W ltac:(lia) B2) as (R2 & W2 & T2).
      assert (X : exists d', tok = match d' with DVersion a b => TVersionDirective a b | DTag h s => TTagDirective h s end /\ stands_for d d').
      { destruct d as [a b|h s]; cbn in DT; [exists (DVersion a b); subst; repeat split|]. destruct DT as (ch & cs & -> & E1 & E2). exists (DTag ch cs). repeat split; assumption. }
      destruct X as (d' & -> & SF). eexists _, ska', key', (d' :: ds'). split; [exact R2|]. split; [exact K'|]. split; [eauto using moves_trans|]. split; [exact W2|].
      split; [|constructor; assumption]. rewrite T2, T. reflexivity.
  Qed.

  Lemma stands_versions ds ds' : Forall2 stands_for ds ds' -> versions ds' = given_versions ds.
  Proof. induction 1 as [|d d' ds ds' S F IH]; [reflexivity|]. destruct d, d'; cbn in S; try tauto; unfold versions, given_versions in *; cbn [flat_map]; rewrite IH; destruct S; subst; reflexivity. Qed.
  Lemma stands_prefixes ds ds' : Forall2 stands_for ds ds' -> map tag_shown (default_tags ++ declared ds') = prefixes ds.
  Proof.
    intros F. unfold prefixes. rewrite map_app. f_equal. induction F as [|d d' ds ds' S F IH]; [reflexivity|].
    destruct d, d'; cbn in S; try tauto; unfold declared in *; cbn [flat_map]; rewrite map_app, IH; destruct S as [E1 E2];
      unfold tag_shown; cbn [map app fst snd]; rewrite ?E1, ?E2; reflexivity.
  Qed.
  Lemma stands_begin ds ds' i : Forall2 stands_for ds ds' -> shows (EvDocumentStart (directives_of ds') i) = Some (begin_of ds i).
  Proof.
    intros F. cbn [shows directives_of d_version d_tags]. rewrite (stands_versions _ _ F), (stands_prefixes _ _ F). reflexivity.
  Qed.
  Lemma stands_handles ds ds' : Forall2 stands_for ds ds' -> map (fun hp => cow_str (fst hp)) (default_tags ++ declared ds') = map fst (prefixes ds).
  Proof. intros F. rewrite <- (stands_prefixes _ _ F), map_map. reflexivity. Qed.
  Lemma stands_distinct ds ds' : Forall2 stands_for ds ds' -> consistent ds -> distinct ds'.
  Proof.
    intros F [V N]. split; [rewrite (stands_versions _ _ F); exact V|]. rewrite (stands_handles _ _ F). exact N.
  Qed.
  Lemma get_known (m : tag_map) h : In h (map (fun hp => cow_str (fst hp)) m) -> tag_get m h <> None.
  Proof.
    induction m as [|[k v] m IH]; [intros []|]. intros [E|I]; cbn [tag_get].
    - cbn in E. rewrite (proj2 (BaseFacts.str_eqb_eq _ _) E). discriminate.
    - destruct (str_eqb (cow_str k) h); [discriminate|apply IH, I].
  Qed.
  Lemma stands_known ds ds' h : Forall2 stands_for ds ds' -> handles_of ds h -> known_in (directives_of ds') h.
  Proof. intros F I. apply get_known. cbn [directives_of d_tags]. rewrite (stands_handles _ _ F). exact I. Qed.

  (** ** Streams *)
  Scheme documents_mut := Minimality for documents Sort Prop
  with document_end_mut := Minimality for document_end Sort Prop.
  Combined Scheme stream_ind from documents_mut, document_end_mut.

  Lemma path_chain m a b es g fs g' sc2 : run o g es g' -> within a m es ->
    path o (text (g_place g')) (scan_of 0 g') fs sc2 -> within m b fs -> a <= m -> m <= b ->
    path o (text (g_place g)) (scan_of 0 g) (es ++ fs) sc2 /\ within a b (es ++ fs) /\ toks (es ++ fs) = toks es ++ toks fs.
  Proof.
    intros R W1 P W2 L1 L2. split; [eapply run_path; eassumption|]. split; [|eapply toks_app; eassumption].
    apply within_app; eapply within_wide; eauto.
  Qed.
  Lemma end_path p ska key c : skips false (text p) [] -> all_ascii (text p) -> easy key -> level_ground c ->
    exists es sc2 hi, path o (text p) (scan_of 0 (mkCfg p ska key c)) es sc2 /\ offset p <= hi /\ within (offset p) hi es /\
      toks es = blockends (List.length (c_indents c)) ++ [Tok TStreamEnd].
  Proof.
    intros SK A K [F _].
    assert (AP : exists p0, apart p p0 /\ text p0 = []).
    { destruct (eat_ws_complete o (text p) [] (snd p) NE eq_refl SK) as (st & _ & RD); [exists (text p); split; [rewrite app_nil_r; reflexivity|exact A]|].
      exists ([], st). split; [split; [exact SK|exact RD]|reflexivity]. }
    destruct AP as (p0 & AP & E0). pose proof (moves_order _ _ (apart_moves _ _ AP)) as [B0 _].
    destruct (end_turn o p p0 ska key c 0 NE A AP E0 K F) as (sc2 & D2 & AD). set (x := offset p0) in *.
    assert (W1 : within x x (ends (List.length (c_indents c)) x)) by (apply within_ends; lia).
    assert (W2 : within x x [mkEntry (Tok TStreamEnd) x]) by (repeat constructor; cbn; lia).
    exists ((ends (List.length (c_indents c)) x ++ [mkEntry (Tok TStreamEnd) x]) ++ []), sc2, x.
    split; [eapply path_step; [discriminate|exact AD|apply path_done, D2]|]. split; [exact B0|]. rewrite app_nil_r.
    split; [eapply within_wide; [apply within_app; eassumption|exact B0|lia]|].
    rewrite (toks_app x x x) by assumption. rewrite toks_ends. reflexivity.
  Qed.
  Lemma mark_run (start : bool) p p0 p1 ska key c : all_ascii (text p) -> apart p p0 -> document_mark (if start then 45 else 46)%N p0 p1 -> easy key -> level_ground c ->
    moves p p1 /\ exists es, run o (mkCfg p ska key c) es (mkCfg p1 false None (mkCxt 0 0 [] (c_started c))) /\ within (offset p) (offset p1) es /\
      toks es = blockends (List.length (c_indents c)) ++ [Tok (if start then TDocumentStart else TDocumentEnd)].
  Proof.
    intros A AP DM K G. pose proof (apart_moves _ _ AP) as M0. pose proof (moves_ascii _ _ M0 A) as A0.
    destruct (mark_moves o NE NL start p0 p1 A0 DM) as (M1 & O1 & _). pose proof (moves_order _ _ M0) as [B0 _].
    split; [eauto using moves_trans|]. eexists. split; [eapply run_cons; [apply (mark_step o NE NL start p p0 p1 ska key c A AP DM K G)|constructor]|].
    assert (W1 : within (offset p0) (offset p0) (ends (List.length (c_indents c)) (offset p0))) by (apply within_ends; lia).
    rewrite app_nil_r. split.
    - apply within_app; [eapply within_wide; [exact W1|exact B0|lia]|]. repeat constructor; cbn; lia.
    - rewrite (toks_app (offset p0) (offset p0) (offset p1)); [rewrite toks_ends; reflexivity|exact W1|]. repeat constructor; cbn; lia.
  Qed.

  Definition D_rest (bare first used : bool) (p : place) (e : list deed) : Prop :=
    all_ascii (text p) -> forall ska key c, easy key -> level_ground c -> (c_started c = true -> used = true) ->
      (bare = true -> c_indents c = []) -> (first = true -> ska = true) ->
      exists es sc2 hi ts evs, path o (text p) (scan_of 0 (mkCfg p ska key c)) es sc2 /\ offset p <= hi /\ within (offset p) hi es /\
        toks es = blockends (List.length (c_indents c)) ++ ts /\ said evs e /\
        (bare = false -> ahead_in ts [MDocumentStart; MStreamEnd]) /\ t_documents bare first ts (evs ++ [EvStreamEnd]) [].
  Definition D_end (used : bool) (p : place) (e : list deed) : Prop :=
    all_ascii (text p) -> forall ska key c, easy key -> level_ground c -> (c_started c = true -> used = true) ->
      exists es sc2 hi ts evs, path o (text p) (scan_of 0 (mkCfg p ska key c)) es sc2 /\ offset p <= hi /\ within (offset p) hi es /\
        toks es = blockends (List.length (c_indents c)) ++ ts /\ said evs e /\
        ahead_in ts [MDocumentStart; MDocumentEnd; MStreamEnd] /\ t_document_end ts (evs ++ [EvStreamEnd]) [].
  Lemma bare_context c : level_ground c -> c_indents c = [] -> c = mkCxt 0 0 [] (c_started c).
  Proof. intros [F G] E. destruct c as [f i l s]. cbn in *. subst. cbn in G. subst. reflexivity. Qed.
  Lemma in_not ts ms ms' : ahead_in ts ms -> (forall m, In m ms -> ~ In m ms') -> ahead_not ts ms'.
  Proof. intros (m & E & I) D. exists m. split; [exact E|]. apply D, I. Qed.
  Lemma in_more ts ms ms' : ahead_in ts ms -> (forall m, In m ms -> In m ms') -> ahead_in ts ms'.
  Proof. intros (m & E & I) D. exists m. split; [exact E|]. apply D, I. Qed.
  Ltac differ := cbn; intros m I X; repeat (destruct I as [I|I]; [subst m; repeat (destruct X as [X|X]; [discriminate|]); exact X|]); exact I.

  Lemma stream_all :
    (forall bare first used p e, documents bare first used p e -> D_rest bare first used p e) /\
    (forall used p e, document_end used p e -> D_end used p e).
  Proof.
    apply stream_ind.
    - intros bare used p SK A ska key c K G U B S.
      destruct (end_path p ska key c SK A K G) as (es & sc2 & hi & P & L & W & T).
      exists es, sc2, hi, [Tok TStreamEnd], []. do 4 (split; [assumption|]). split; [reflexivity|].
      split; [intros _; exists MStreamEnd; split; [reflexivity|right; left; reflexivity]|constructor].
    - intros bare used p SK A ska key c K G U B S.
      destruct (end_path p ska key c SK A K G) as (es & sc2 & hi & P & L & W & T).
      exists es, sc2, hi, [Tok TStreamEnd], [EvDocumentStart default_directives true; EvDocumentEnd true]. do 4 (split; [assumption|]). split; [reflexivity|].
      split; [intros _; exists MStreamEnd; split; [reflexivity|right; left; reflexivity]|]. apply td_empty. constructor.
    - intros first used p e p' used' r CN _ IH A ska key c K G U B S. specialize (B eq_refl). pose proof (bare_context c G B) as EC.
      destruct (content_tokens _ (known_in default_directives) first used p e p' used' (c_started c) ska key (fun h => stands_known [] [] h (Forall2_nil _)) CN A S K U)
        as (es & ska' & key' & c' & R & K' & G' & U' & M & W & T). rewrite <- EC in R.
      destruct (IH (moves_ascii _ _ M A) ska' key' c' K' G' U') as (fs & sc2 & hi & ts & evs & P & L & W2 & T2 & SA & AH & TD).
      pose proof (moves_order _ _ M) as [B1 _].
      destruct (path_chain (offset p') (offset p) hi es _ fs _ sc2 R W P W2 B1 L) as (P3 & W3 & T3).
      assert (AN : ahead_not ts (MAnchor :: MTag :: starters true)) by (eapply in_not; [exact AH|differ]).
      destruct (T ts AN) as [ST (nevs & SN & TN)].
      exists (es ++ fs), sc2, hi, (toks es ++ blockends (List.length (c_indents c')) ++ ts), (EvDocumentStart default_directives true :: nevs ++ evs).
      split; [exact P3|]. split; [lia|]. split; [exact W3|]. split; [rewrite B, T3, T2; reflexivity|].
      split; [apply said_cons; [reflexivity|apply said_app; assumption]|]. split; [discriminate|].
      cbn [app]. rewrite <- app_assoc. eapply td_bare; [|exact TN|exact TD]. eapply in_not; [exact ST|differ].
    - intros bare first used p ds p1 p2 p3 e p' used' r BD DL CS AP DM CN _ IH A ska key c K G U B S.
      assert (D : exists es ska' key' c' ds', run o (mkCfg p ska key c) es (mkCfg p1 ska' key' c') /\ easy key' /\ level_ground c' /\ c_started c' = c_started c /\
        moves p p1 /\ within (offset p) (offset p1) es /\ toks es ++ blockends (List.length (c_indents c')) = blockends (List.length (c_indents c)) ++ map SpecTokens.directive_token ds' /\ Forall2 stands_for ds ds' /\ (ds = [] -> ds' = [])).
      { destruct BD as [E|E]; subst.
        - specialize (B eq_refl). pose proof (bare_context c G B) as EC.
          destruct (directives_tokens p ds p1 DL A ska key (c_started c) K) as (es & ska' & key' & ds' & R & K' & M & W & T & F). rewrite <- EC in R.
          exists es, ska', key', c, ds'. split; [exact R|]. split; [exact K'|]. split; [exact G|]. split; [reflexivity|]. split; [exact M|]. split; [exact W|].
          split; [rewrite B, T, app_nil_r; reflexivity|]. split; [exact F|]. intros ->. inversion F. reflexivity.
        - inversion DL; subst. exists [], ska, key, c, []. split; [constructor|]. split; [exact K|]. split; [exact G|]. split; [reflexivity|]. split; [constructor|]. split; [constructor|].
          split; [rewrite app_nil_r; reflexivity|]. split; [constructor|reflexivity]. }
      destruct D as (es1 & ska1 & key1 & c1 & ds' & R1 & K1 & G1 & EU & M1 & W1 & T1 & F & DN). pose proof (moves_ascii _ _ M1 A) as A1.
      destruct (mark_run true p1 p2 p3 ska1 key1 c1 A1 AP DM K1 G1) as (M2 & es2 & R2 & W2 & T2). pose proof (moves_ascii _ _ M2 A1) as A2.
      pose proof (moves_order _ _ M1) as [B1 _]. pose proof (moves_order _ _ M2) as [B2 _].
      destruct (run_chain o (offset p1) (offset p) (offset p3) _ _ _ _ _ R1 W1 R2 W2 B1 B2) as (R3 & W3 & T3).
      rewrite T2, app_assoc, T1 in T3. rewrite EU in R3.
      assert (X : exists es sc2 hi ts evs, path o (text p3) (scan_of 0 (mkCfg p3 false None (mkCxt 0 0 [] (c_started c)))) es sc2 /\ offset p3 <= hi /\ within (offset p3) hi es /\
        toks es = ts /\ said evs (e ++ r) /\ exists n ts1 evs1, evs = n ++ evs1 /\ t_content (directives_of ds') ts n ts1 /\ t_document_end ts1 (evs1 ++ [EvStreamEnd]) []).
      { destruct CN as [(-> & -> & ->)|CN].
        - destruct (IH A2 false None (mkCxt 0 0 [] (c_started c)) Logic.I (conj eq_refl eq_refl) U) as (fs & sc2 & hi & ts & evs & P & L & W4 & T4 & SA & AH & TD).
          exists fs, sc2, hi, ts, evs. do 3 (split; [assumption|]). split; [exact T4|]. split; [exact SA|]. exists [], ts, evs. split; [reflexivity|]. split; [|exact TD].
          apply tc_absent. eapply in_more; [exact AH|]. cbn. tauto.
        - destruct (content_tokens _ (known_in (directives_of ds')) false used p3 e p' used' (c_started c) false None (fun h => stands_known ds ds' h F) CN A2 ltac:(discriminate) Logic.I U)
            as (es & ska' & key' & c' & R & K' & G' & U' & M & W & T).
          destruct (IH (moves_ascii _ _ M A2) ska' key' c' K' G' U') as (fs & sc2 & hi & ts & evs & P & L & W4 & T4 & SA & AH & TD).
          pose proof (moves_order _ _ M) as [B3 _].
          destruct (path_chain (offset p') (offset p3) hi es _ fs _ sc2 R W P W4 B3 L) as (P5 & W5 & T5).
          assert (AN : ahead_not ts (MAnchor :: MTag :: starters true)) by (eapply in_not; [exact AH|differ]).
      destruct (T ts AN) as [ST (nevs & SN & TN)].
          exists (es ++ fs), sc2, hi, (toks es ++ blockends (List.length (c_indents c')) ++ ts), (nevs ++ evs).
          split; [exact P5|]. split; [lia|]. split; [exact W5|]. split; [rewrite T5, T4; reflexivity|]. split; [apply said_app; assumption|].
          exists nevs, ts, evs. split; [reflexivity|]. split; [|exact TD]. apply tc_node; [|exact TN]. eapply in_not; [exact ST|differ]. }
      destruct X as (es4 & sc2 & hi & ts & evs & P4 & L4 & W4 & T4 & SA & nevs & ts1 & evs1 & -> & TC & TD).
      destruct (path_chain (offset p3) (offset p) hi _ _ es4 _ sc2 R3 W3 P4 W4 ltac:(lia) L4) as (P5 & W5 & T5).
      eexists _, sc2, hi, (map SpecTokens.directive_token ds' ++ Tok TDocumentStart :: ts), (EvDocumentStart (directives_of ds') false :: nevs ++ evs1).
      split; [exact P5|]. split; [lia|]. split; [exact W5|]. split; [rewrite T5, T3, T4, <- !app_assoc; reflexivity|].
      split; [apply said_cons; [apply stands_begin, F|exact SA]|].
      split; [intros ->; destruct BD as [BD|BD]; [discriminate|]; rewrite (DN BD); exists MDocumentStart; split; [reflexivity|left; reflexivity]|].
      cbn [app]. rewrite <- app_assoc. eapply td_explicit; [eapply stands_distinct; eassumption|exact TC|exact TD].
    - intros used p p0 p' r AP DM _ IH A ska key c K G U.
      destruct (mark_run false p p0 p' ska key c A AP DM K G) as (M & es & R & W & T). pose proof (moves_order _ _ M) as [B1 _].
      destruct (IH (moves_ascii _ _ M A) false None (mkCxt 0 0 [] (c_started c)) Logic.I (conj eq_refl eq_refl) U (fun _ => eq_refl) ltac:(discriminate)) as (fs & sc2 & hi & ts & evs & P & L & W2 & T2 & SA & _ & TD).
      destruct (path_chain (offset p') (offset p) hi es _ fs _ sc2 R W P W2 B1 L) as (P3 & W3 & T3).
      exists (es ++ fs), sc2, hi, (Tok TDocumentEnd :: ts), (EvDocumentEnd false :: evs).
      split; [exact P3|]. split; [lia|]. split; [exact W3|]. split; [rewrite T3, T, T2, <- app_assoc; reflexivity|]. split; [apply said_cons; [reflexivity|exact SA]|].
      split; [exists MDocumentEnd; split; [reflexivity|right; left; reflexivity]|]. apply te_explicit, TD.
    - intros used p r _ IH A ska key c K G U.
      destruct (IH A ska key c K G U ltac:(discriminate) ltac:(discriminate)) as (fs & sc2 & hi & ts & evs & P & L & W2 & T2 & SA & AH & TD).
      exists fs, sc2, hi, ts, (EvDocumentEnd true :: evs). do 4 (split; [assumption|]). split; [apply said_cons; [reflexivity|exact SA]|]. specialize (AH eq_refl).
      split; [eapply in_more; [exact AH|cbn; tauto]|]. apply te_implicit; [|exact TD]. eapply in_not; [exact AH|differ].
  Qed.

  Lemma stream_tokens t e : all_ascii t -> stream t e ->
    exists h k sc ts evs, calls o t k = (h, sc, Ok tt) /\ sc_state sc = SDone /\ map e_wrap (isort h) = Tok TStreamStart :: ts /\
      said evs e /\ t_documents true true ts (evs ++ [EvStreamEnd]) [].
  Proof.
    intros A D. assert (V : valid t) by (apply valid_text, A).
    pose proof (first_calls o t) as FC. destruct (calls_good o t 1 NE V) as [GD _]. rewrite FC in GD. destruct GD as (b & I & G & B & _).
    assert (b = t) as ->. { unfold stands, get_from in G. cbn in G. destruct t; cbn in G; congruence. }
    destruct (proj1 stream_all _ _ _ _ _ D A true None cxt0 Logic.I (conj eq_refl eq_refl) ltac:(discriminate) (fun _ => eq_refl) (fun _ => eq_refl)) as (es & sc2 & hi & ts & evs & P & L & W & T & SA & _ & TD).
    destruct (path_calls o t NE V _ 1 _ ready t _ sc2 (le_n _) FC I G B P) as (k & sc3 & C & D3).
    exists ([mkEntry (Tok TStreamStart) 0] ++ es), k, sc3, ts, evs. split; [exact C|]. split; [exact D3|]. split; [|auto].
    change (toks ([mkEntry (Tok TStreamStart) 0] ++ es) = Tok TStreamStart :: ts).
    rewrite (toks_app 0 0 hi); [rewrite T; reflexivity|repeat constructor; cbn; lia|exact W].
  Qed.
End Documents.
