(** Every round of the scanner is described by [round]. *)
From Verif Require Export ScanWp.
From Coq Require Import Lia ZifyBool ZifyN ZifyNat.
Open Scope nat_scope.

(** ** Computations *)
Lemma bind_ok {E A B} (m : res E A) (k : A -> res E B) x : bind m k = Ok x ->
  exists a, m = Ok a /\ k a = Ok x.
Proof. destruct m; try discriminate. eauto. Qed.

Ltac open_bind H := let a := fresh "v" in let E := fresh "E" in
  apply bind_ok in H as (a & E & H).

(** ** Readings *)
Lemma reads_shift st b d0 b' d : reads b d0 b' d -> reads b (sadd st d0) b' (sadd st d).
Proof.
  induction 1 as [|s n d0 s' d' L NB BD R IH|s d0 s' d' B BD R IH].
  - constructor.
  - eapply reads_text; eauto. eapply eq_rect with (P := fun x => reads _ x _ _); [exact IH|].
    unfold sadd, supd. cbn. destruct (slines d0); f_equal; lia.
  - eapply reads_break; eauto. eapply eq_rect with (P := fun x => reads _ x _ _); [exact IH|].
    unfold sadd, supd. cbn. f_equal; lia.
Qed.
Lemma reads_shift0 st b b' d : reads b stats0 b' d -> reads b st b' (sadd st d).
Proof.
  intros R. apply (reads_shift st) in R. eapply eq_rect with (P := fun x => reads _ x _ _); [exact R|].
  destruct st. unfold sadd, supd. cbn. f_equal; lia.
Qed.
Lemma reads_lines a sa b sb : reads a sa b sb -> slines sa <= slines sb.
Proof. induction 1; cbn in *; lia. Qed.

Lemma reads_counted b st b' st' : valid b -> reads b st b' st' -> List.length b' < List.length b ->
  counted b st b' st'.
Proof.
  intros V R L. pose proof (reads_len _ _ _ _ R) as (_ & E & D).
  split; [exact L|]. split; [exact (reads_valid _ _ _ _ R V)|].
  split; [exists (List.length b - List.length b'); split; [exact D|exact (reads_boundary _ _ _ _ R)]|].
  split; [lia|]. split; [lia|]. exact (reads_lines _ _ _ _ R).
Qed.
Lemma reads_eof_counted b st b' st' : valid b -> reads_eof b st b' st' -> List.length b' < List.length b ->
  counted b st b' st'.
Proof.
  intros V [R|(-> & st1 & R & ->)] L; [apply reads_counted; assumption|].
  pose proof (reads_counted _ _ _ _ V R L) as (A & B & C & D & E & F).
  repeat split; auto; cbn in *; lia.
Qed.

(** ** Safe texts *)
Lemma safe_skipn o s n : safe o s -> safe o (skipn n s).
Proof.
  intros (T & B). split; [apply tame_skipn, T|]. intros k. rewrite skipn_skipn. apply B.
Qed.
Lemma at_is_In s c : at_is s 0 c = true -> In c s.
Proof. intros H. destruct (at_is_cons _ _ H) as (r & ->). left. reflexivity. Qed.

Lemma valid_byte c r : valid (c :: r) -> (c < 128)%N -> is_boundary (c :: r) 1 = true /\ valid r.
Proof.
  intros V C. assert (B : is_boundary (c :: r) 1 = true).
  { destruct (valid_first _ V ltac:(discriminate)) as (b & t & s & E & VS & W & H & F).
    injection E as <- ->. unfold width_byte in W. replace (c <? 128)%N with true in W by lia.
    destruct t; [|discriminate]. cbn [app] in *. apply (boundary_app [c]), valid_head, VS. }
  split; [exact B|]. apply (valid_skipn (c :: r) 1 V B).
Qed.

Definition plainb (c : N) : Prop := (c < 128)%N /\ c <> 10%N /\ c <> 13%N.
Lemma reads_char c r st : valid (c :: r) -> plainb c -> reads (c :: r) st r (supd st 1 0 1).
Proof.
  intros V (A & B & C). destruct (valid_byte _ _ V A) as [BD _].
  apply (reads_adv (c :: r) 1 st); [cbn; lia| |exact BD].
  intros k K. assert (k = 0) as -> by lia. apply plain_byte_no_break. repeat split; auto.
Qed.

(** ** Kinds of tokens *)
Lemma anchor_kind o b st alias tok buf d : scan_anchor o b st alias = Ok (tok, buf, d) ->
  exists n, tok = if alias : bool then TAlias (Borrowed n) else TAnchor (Borrowed n).
Proof.
  unfold scan_anchor. intros H. open_bind H. destruct v as [s1 st1]. open_bind H. open_bind H.
  destruct v0 as [s2 st2]. destruct (is_empty _); [discriminate|]. open_bind H.
  destruct s2 as [|x r]; [discriminate|]. destruct (anchor_follow x); [|discriminate].
  assert (tok = if alias then TAlias (Borrowed (firstn v s1)) else TAnchor (Borrowed (firstn v s1))) by congruence.
  eauto.
Qed.
Lemma assemble_kind h s b : exists x y, assemble_tag h s b = TTag x y.
Proof. unfold assemble_tag. destruct b; cbn; eauto. Qed.
Lemma tag_kind o b st tok n d : scan_node_tag o b st = Ok (tok, n, d) -> exists h s, tok = TTag h s.
Proof.
  unfold scan_node_tag. intros H. open_bind H. open_bind H. destruct v0 as [[[tok' buf] amt] st']. open_bind H.
  assert (tok = tok') as -> by congruence. clear H E1.
  destruct (starts_with b (bytes "!<")).
  - open_bind E0. open_bind E0. destruct v2 as [[[uri amt'] st1] borrow]. open_bind E0.
    destruct (at_is _ _ _); [|destruct (Nat.ltb _ _); discriminate].
    destruct (assemble_kind [] uri borrow) as (x & y & E'). rewrite E' in E0.
    assert (tok' = TTag x y) by congruence. eauto.
  - open_bind E0. destruct v1 as [h st1]. destruct h as [[[h|h|h] amt']|].
    + assert (tok' = TTag (Borrowed h) (Borrowed [])) by congruence. eauto.
    + open_bind E0. open_bind E0. destruct v2 as [[[uri a2] st2] borrow].
      destruct (assemble_kind h uri borrow) as (x & y & E'). rewrite E' in E0.
      assert (tok' = TTag x y) by congruence. eauto.
    + open_bind E0. open_bind E0. destruct v2 as [[[uri a2] st2] borrow].
      destruct (assemble_kind h uri borrow) as (x & y & E'). rewrite E' in E0.
      assert (tok' = TTag x y) by congruence. eauto.
    + open_bind E0. open_bind E0. open_bind E0. destruct v3 as [s3 st3]. open_bind E0.
      destruct v3 as [[[uri a2] st2] borrow].
      destruct (assemble_kind v2 uri borrow) as (x & y & E'). rewrite E' in E0.
      assert (tok' = TTag x y) by congruence. eauto.
Qed.
Lemma directive_kind o b st k tok buf d : scan_directive o b st k = Ok (tok, buf, d) ->
  (exists x y, tok = TVersionDirective x y) \/ (exists h p, tok = TTagDirective h p).
Proof.
  unfold scan_directive. intros H. open_bind H. destruct v as [s1 st1]. destruct k.
  - open_bind H. destruct v as [major n]. open_bind H. destruct v as [s2 st2]. open_bind H.
    destruct s2 as [|x r]; [discriminate|]. destruct (x =? 46)%N; [|discriminate].
    open_bind H. destruct v0 as [s3 st3]. open_bind H. destruct v0 as [minor n2]. open_bind H.
    destruct v0 as [s4 st4]. left. exists major, minor. congruence.
  - open_bind H. destruct v as [[tok' amt] st2]. open_bind H. assert (tok = tok') as -> by congruence.
    clear H E1. right. unfold scan_tag_directive in E0. open_bind E0. destruct v0 as [h st3].
    destruct h as [[h amt']|]; [|discriminate]. open_bind E0. open_bind E0.
    destruct (is_empty _); [discriminate|]. destruct (negb _); [discriminate|].
    open_bind E0. destruct v2 as [s5 st5]. open_bind E0. destruct v2 as [[[p a2] st6] borrow].
    destruct (is_ws_at _ _); [|destruct (is_empty _); discriminate].
    open_bind E0. destruct borrow; cbn in E0; eexists; eexists; injection E0 as <- _ _; reflexivity.
Qed.

Lemma leaf_inv {A} o (P : A -> Prop) p r a : leaf o P p r -> r = Ok a -> P a.
Proof. intros H ->. exact H. Qed.

Section Round.
  Variable o : flags.
  Variable pan : Prop.

  (** Outcome of the dispatch. *)
  Definition disp_ok (b : str) (sc : scanner) (es : list entry) (b' : str) (sc' : scanner) (_ : unit) : Prop :=
    exists e1 sc1 fs, es = e1 ++ fs /\ quiet b sc e1 b sc1 /\ fresh sc1 /\ act o b sc1 fs b' sc'.

  Lemma disp_now b sc es b' sc' u : fresh sc -> act o b sc es b' sc' -> disp_ok b sc es b' sc' u.
  Proof. intros F A. exists [], sc, es. repeat split; auto. constructor. Qed.

  Lemma fresh_none sc : sc_key sc = None -> fresh sc.
  Proof. intros H. unfold fresh. rewrite H. exact Logic.I. Qed.

  Notation WP m b sc := (wp o pan m b sc (disp_ok b sc) (quiet b sc)).

  Lemma wp_document_marker b sc start : valid b ->
    starts_with b (bytes (if start : bool then "---" else "...")) = true -> scol (sc_st sc) = 0 ->
    is_wsZ_at b 3 = true -> WP (fetch_document_marker start) b sc.
  Proof.
    intros V S C W. unfold fetch_document_marker.
    apply wp_unroll. intros n c CL EM ID. apply wp_remove_key. intros KR. apply wp_upd.
    assert (HB : exists r, b = bytes (if start then "---" else "...") ++ r).
    { apply starts_with_iff in S. exact S. }
    destruct HB as (r & EB).
    assert (VR : valid r /\ is_boundary b 3 = true /\ skipn 3 b = r /\ reads b (sc_st sc) r (supd (sc_st sc) 3 0 3)).
    { subst b. assert (exists x y z, bytes (if start then "---" else "...") = [x; y; z] /\ plainb x /\ plainb y /\ plainb z)
        as (x & y & z & E & X & Y & Z).
      { destruct start; do 3 eexists; (split; [reflexivity|]); repeat split; discriminate. }
      rewrite E in *. cbn [app] in *.
      destruct (valid_byte _ _ V (proj1 X)) as [B1 V1]. destruct (valid_byte _ _ V1 (proj1 Y)) as [B2 V2].
      destruct (valid_byte _ _ V2 (proj1 Z)) as [B3 V3].
      assert (BD : is_boundary (x :: y :: z :: r) 3 = true).
      { apply (boundary_add _ 1 2 B1). apply (boundary_add (y :: z :: r) 1 1 B2 B3). }
      repeat split; auto. apply (reads_adv (x :: y :: z :: r) 3); [cbn; lia| |exact BD].
      intros k K. unfold plainb in *. destruct k as [|[|[|k]]]; [| | |lia]; apply plain_byte_no_break; unfold plain_byte; tauto. }
    destruct VR as (VR & BD & SK & RD).
    apply wp_advance_st; [exact BD|]. apply wp_here_last. rewrite SK.
    exists (ends n (sread (sc_st sc))), (set_ska false (set_key None (set_cxt c sc))), 
      [mkEntry (Tok (if start then TDocumentStart else TDocumentEnd)) (sread (sc_st sc) + 3)].
    split; [reflexivity|]. split; [|split; [apply fresh_none; reflexivity|]].
    - rewrite <- (app_nil_r (ends _ _)). apply qt_ends with (c := c); [exact CL| | |].
      { apply cause_document; [exact ID|]. right. split; [exact C|]. right. exists start. auto. }
      { subst b. destruct start; apply sk_end; reflexivity. }
      apply qt_key with (k := None); [reflexivity|]. apply (qt_ska _ _ false). constructor.
    - eapply act_content with (n := 3) (st' := supd (sc_st sc) 3 0 3).
      + apply ct_mark; assumption.
      + rewrite SK. reflexivity.
      + apply reads_counted; [exact V|exact RD|]. subst b. rewrite app_length. destruct start; cbn; lia.
      + intros _. left. exact RD.
      + subst b. destruct start; discriminate.
      + right. left. reflexivity.
      + reflexivity.
      + intros _ BL. cbn. apply EM; [|reflexivity]. destruct CL as (_ & _ & FL & _).
        unfold is_block, is_flow in *. cbn in BL. rewrite FL in BL. exact BL.
      + split; reflexivity.
  Qed.

  (** The end of a content token. *)
  Lemma disp_content b sc tok n st' ska key u : fresh sc ->
    content o b (sc_st sc) (sc_cxt sc) tok n st' -> counted b (sc_st sc) (skipn n b) st' ->
    (exact b -> tracks o b (sc_st sc) (skipn n b) st') ->
    (starts_with b (bytes "!<") = true -> at_is (skipn n b) 0 62 = true) ->
    key_kept sc key -> at_is b 0 62 = false -> parts_documents (maybe_marker tok) = false ->
    disp_ok b sc [mkEntry tok (sread st')] (skipn n b)
      (mkSc (sc_offset sc) (sc_state sc) ska st' key (sc_cxt sc)) u.
  Proof. intros F C D E G K N P. apply disp_now; [exact F|]. eapply act_content; eauto; congruence. Qed.

  Lemma other_head (c d : N) b : at_is b 0 c = true -> c <> d -> at_is b 0 d = false.
  Proof.
    intros H N. destruct (at_is_cons _ _ H) as (r & ->). unfold at_is. cbn. apply N.eqb_neq, N.
  Qed.
  Lemma not_bang b (r : Prop) : at_is b 0 33 = false -> starts_with b (bytes "!<") = true -> r.
  Proof.
    intros H S. apply starts_with_iff in S as (x & ->). discriminate.
  Qed.
  Ltac head H := apply (other_head _ _ _ H); discriminate.

  Lemma key_saved sc key : key = sc_key sc \/ (exists r, key = Some (new_key (sc_st sc) r)) ->
    key_kept sc key.
  Proof. intros [H|H]; [left; exact H|right; right; exact H]. Qed.

  Lemma wp_flow_entry b sc : valid b -> at_is b 0 44 = true -> fresh sc -> WP fetch_flow_collection_entry b sc.
  Proof.
    intros V H F. unfold fetch_flow_collection_entry. apply wp_remove_key. intros _. apply wp_upd.
    destruct (at_is_cons _ _ H) as (r & ->).
    destruct (valid_byte _ _ V ltac:(reflexivity)) as [BD VR].
    assert (RD : reads (44%N :: r) (sc_st sc) r (supd (sc_st sc) 1 0 1)) by (apply reads_char; [exact V|repeat split; discriminate]).
    apply wp_advance_st; [exact BD|]. apply wp_here_last. cbn [skipn].
    exists [], (set_ska true (set_key None sc)), [mkEntry (Tok TFlowEntry) (sread (sc_st sc) + 1)].
    split; [reflexivity|]. split; [|split; [apply fresh_none; reflexivity|]].
    - apply qt_key with (k := None); [reflexivity|]. apply (qt_ska _ _ true). constructor.
    - eapply act_content with (n := 1) (st' := supd (sc_st sc) 1 0 1).
      + apply ct_entry. reflexivity.
      + reflexivity.
      + apply reads_counted; [exact V|exact RD|cbn; lia].
      + intros _. left. exact RD.
      + discriminate.
      + right. left. reflexivity.
      + reflexivity.
      + discriminate.
      + discriminate.
  Qed.

  Lemma boundary_counted b n : is_boundary b n = true -> 0 < n -> valid b ->
    List.length (skipn n b) < List.length b /\ valid (skipn n b).
  Proof.
    intros B N V. pose proof (boundary_le _ _ B). rewrite skipn_length.
    split; [lia|apply valid_skipn; assumption].
  Qed.

  Lemma leaf_panics {A} (P : A -> Prop) pn (m : sres A) : leaf o P pn m -> leaf o P (m = Panic) m.
  Proof. destruct m; cbn; auto. Qed.
  Lemma not_tame_safe b : ~ tame b -> ~ safe o b.
  Proof. intros H (T & _). contradiction. Qed.
  Lemma not_ascii_safe b : ~ ascii b -> ~ safe o b.
  Proof. intros H. apply not_tame_safe, tame_ascii, H. Qed.

  Lemma directive_kind_leaf s : leaf o (fun k => exists r, s = bytes (match k with KVersion => "YAML" | KTag => "TAG" end) ++ r)
    False (directive_kind_of s).
  Proof.
    unfold directive_kind_of. destruct (starts_with s (bytes "YAML")) eqn:A; [apply starts_with_iff, A|].
    destruct (starts_with s (bytes "TAG")) eqn:B; [apply starts_with_iff, B|]. apply leaf_err. discriminate.
  Qed.

  Lemma wp_directive b sc : valid b -> at_is b 0 37 = true -> scol (sc_st sc) = 0 ->
    (~ safe o b -> pan) -> WP (fetch_directive o) b sc.
  Proof.
    intros V H C0 PAN. unfold fetch_directive. apply wp_get_buf. rewrite H. cbn [negb].
    eapply wp_leaf; [apply (cache_at_leaf o 4 False)|intros []|constructor|]. intros [] _ _.
    destruct (at_is_cons _ _ H) as (r & EB).
    assert (BD1 : is_boundary b 1 = true /\ valid r).
    { subst b. apply valid_byte; [exact V|reflexivity]. }
    destruct BD1 as [BD1 VR].
    assert (S1 : skipn 1 b = r) by (subst b; reflexivity).
    eapply wp_leaf; [apply skip_leaf|intros X; congruence|constructor|]. intros body _ [-> _].
    eapply wp_leaf; [apply directive_kind_leaf|intros []|constructor|]. intros k EK (t & ET).
    set (n := 1 + directive_len k).
    assert (BD : is_boundary b n = true /\ valid (skipn n b) /\ n <= List.length b /\ reads b stats0 (skipn n b) (supd stats0 n 0 n)).
    { rewrite S1 in ET. subst b r.
      assert (BT : is_boundary (37%N :: bytes (match k with KVersion => "YAML" | KTag => "TAG" end) ++ t) n = true).
      { apply (boundary_add _ 1 (directive_len k) BD1).
        cbn [skipn]. destruct k; cbn [bytes Ascii.N_of_ascii app] in *; cbn in VR |- *.
        - destruct (valid_byte _ _ VR ltac:(reflexivity)) as [_ V1]. destruct (valid_byte _ _ V1 ltac:(reflexivity)) as [_ V2].
          destruct (valid_byte _ _ V2 ltac:(reflexivity)) as [_ V3]. destruct (valid_byte _ _ V3 ltac:(reflexivity)) as [_ V4].
          apply (boundary_app [89; 65; 77; 76]%N), valid_head, V4.
        - destruct (valid_byte _ _ VR ltac:(reflexivity)) as [_ V1]. destruct (valid_byte _ _ V1 ltac:(reflexivity)) as [_ V2].
          destruct (valid_byte _ _ V2 ltac:(reflexivity)) as [_ V3].
          apply (boundary_app [84; 65; 71]%N), valid_head, V3. }
      assert (LE : n <= List.length (37%N :: bytes (match k with KVersion => "YAML" | KTag => "TAG" end) ++ t))
        by (cbn [List.length]; rewrite app_length; destruct k; cbn; lia).
      split; [exact BT|]. split; [apply valid_skipn; assumption|]. split; [exact LE|].
      apply reads_adv; [exact LE| |exact BT].
      apply no_breaks; [exact LE|]. unfold n. destruct k; cbn; repeat constructor; discriminate. }
    destruct BD as (BDn & VN & LN & RN).
    eapply wp_leaf; [apply adv_leaf|intros X; congruence|constructor|]. intros [buf d] _ (-> & -> & _).
    eapply wp_leaf; [apply scan_directive_leaf| |constructor|].
    { intros X. apply PAN. intros SF. apply X. apply tame_skipn, (proj1 SF). }
    intros [[tok buf] d] ED RD.
    pose proof (reads_trans _ _ _ _ _ _ RN RD) as R0.
    pose proof (reads_shift0 (sc_st sc) _ _ _ R0) as R1.
    apply wp_unroll. intros m c CL EM ID. apply wp_remove_key. intros KR. apply wp_upd.
    apply wp_skip; [exact (reads_boundary _ _ _ _ R0)|]. apply wp_add_st, wp_here_last.
    rewrite (proj1 (reads_consumed _ _ _ _ R0)).
    exists (ends m (sread (sc_st sc))), (set_ska false (set_key None (set_cxt c sc))),
      [mkEntry (Tok tok) (sread (sadd (sc_st sc) d))].
    split; [reflexivity|]. split; [|split; [apply fresh_none; reflexivity|]].
    - rewrite <- (app_nil_r (ends _ _)). apply qt_ends with (c := c); [exact CL| | |].
      { apply cause_document; [exact ID|]. right. auto. }
      { destruct (at_is_cons _ _ H) as (r0 & EB0). rewrite EB0. apply sk_end; reflexivity. }
      apply qt_key with (k := None); [reflexivity|]. apply (qt_ska _ _ false). constructor.
    - eapply act_content with (n := consumed b buf) (st' := sadd (sc_st sc) d).
      + eapply ct_directive; eauto.
      + rewrite (proj1 (reads_consumed _ _ _ _ R0)). reflexivity.
      + apply reads_counted; [exact V|exact R1|]. pose proof (reads_len _ _ _ _ RD) as (L & _).
        rewrite skipn_length in L. unfold n in *. lia.
      + intros _. left. exact R1.
      + apply not_bang. head H.
      + right. left. reflexivity.
      + reflexivity.
      + intros _ BL. cbn. apply EM; [|reflexivity]. destruct CL as (_ & _ & FL & _).
        unfold is_block, is_flow in *. cbn in BL. rewrite FL in BL. exact BL.
      + split; reflexivity.
  Qed.

  Lemma verbatim_rest b st tok n d : starts_with b (bytes "!<") = true ->
    scan_node_tag o b st = Ok (tok, n, d) -> at_is (skipn n b) 0 62 = true.
  Proof.
    intros S H. unfold scan_node_tag in H. apply bind_ok in H as (u & _ & H). rewrite S in H.
    apply bind_ok in H as ([[[tk buf] amt] st1] & E & H).
    apply bind_ok in E as (buf0 & E0 & E). apply bind_ok in E as ([[[uri a] st2] bw] & E1 & E).
    apply bind_ok in E as (u' & _ & E). destruct (at_is buf0 (a + 1) 62) eqn:A; [|destruct (Nat.ltb _ _); discriminate].
    assert (buf = buf0 /\ amt = a + 1) as [-> ->] by (split; congruence).
    apply bind_ok in H as (rest & E2 & H). assert (n = consumed b rest) as -> by congruence.
    pose proof (skip_leaf o b 2) as S0. rewrite E0 in S0. destruct S0 as [-> B0].
    pose proof (skip_leaf o (skipn 2 b) (a + 1)) as S2. rewrite E2 in S2. destruct S2 as [-> B2].
    pose proof (boundary_le _ _ B0). pose proof (boundary_le _ _ B2) as L2. rewrite skipn_length in L2.
    rewrite skipn_skipn. replace (consumed _ _) with (2 + (a + 1)).
    - rewrite at_is_skipn, Nat.add_0_r. rewrite at_is_skipn in A. exact A.
    - unfold consumed. rewrite skipn_length. lia.
  Qed.

  Lemma wp_tag b sc : valid b -> at_is b 0 33 = true -> fresh sc -> (~ safe o b -> pan) -> WP (fetch_tag o) b sc.
  Proof.
    intros V H F PAN. unfold fetch_tag. apply wp_get_buf. rewrite H. cbn [negb].
    eapply wp_leaf; [apply scan_node_tag_leaf|intros X; apply PAN, not_tame_safe, X|constructor|].
    intros [[tok amt] d] E ((A1 & A2) & BD & (S1 & S2) & RD).
    eapply wp_leaf; [apply skip_leaf|intros X; congruence|constructor|]. intros buf _ [-> _].
    apply wp_save_key. intros key K. apply wp_upd.
    assert (C : consumed b (skipn amt b) = amt) by (unfold consumed; rewrite skipn_length; lia).
    rewrite C. apply wp_skip; [exact BD|]. apply wp_add_st, wp_here_last.
    apply (disp_content b sc (Tok tok) amt (sadd (sc_st sc) d) false key tt).
    - exact F.
    - eapply ct_tag; eauto.
    - destruct (boundary_counted b amt BD A1 V) as [L VV]. split; [exact L|]. split; [exact VV|].
      split; [eauto|]. rewrite skipn_length in *. unfold sadd, supd. cbn [sread slines sc_st] in *.
      cbn [sread stats0] in *. repeat split; lia.
    - intros EX. left. apply (reads_shift0 (sc_st sc)), RD, EX.
    - intros X. eapply verbatim_rest; eauto.
    - apply key_saved, K.
    - head H.
    - destruct (tag_kind _ _ _ _ _ _ E) as (h & sx & ->). reflexivity.
  Qed.

  Lemma wp_anchor b sc : valid b -> at_is b 0 38 = true \/ at_is b 0 42 = true -> fresh sc ->
    (~ safe o b -> pan) -> WP (fetch_anchor o) b sc.
  Proof.
    intros V H F PAN. unfold fetch_anchor. apply wp_get_buf.
    assert (HH : at_is b 0 42 || at_is b 0 38 = true) by (destruct H as [-> | ->]; [apply orb_true_r|reflexivity]).
    rewrite HH.
    assert (exists c r, b = c :: r /\ plain_byte c) as (c & r & EB & PB).
    { destruct H as [H|H]; destruct (at_is_cons _ _ H) as (r & ->); do 2 eexists; (split; [reflexivity|]); repeat split; discriminate. }
    pose proof (scan_anchor_leaf o c r stats0 (at_is b 0 42) PB) as LF. rewrite <- EB in LF.
    eapply wp_leaf; [exact LF|intros X; apply PAN, not_ascii_safe, X|constructor|].
    intros [[tok buf] d] E (RD & L).
    pose proof (reads_shift0 (sc_st sc) _ _ _ RD) as R1.
    apply wp_save_key. intros key K. apply wp_upd.
    apply wp_skip; [exact (reads_boundary _ _ _ _ RD)|]. apply wp_add_st, wp_here_last.
    assert (C : skipn (consumed b buf) b = buf) by exact (proj1 (reads_consumed _ _ _ _ RD)).
    apply (disp_content b sc (Tok tok) (consumed b buf) (sadd (sc_st sc) d) false key tt).
    - exact F.
    - eapply (ct_anchor o b _ _ (at_is b 0 42)); [|exact E|reflexivity].
      destruct (at_is b 0 42) eqn:A; [exact A|]. exact HH.
    - rewrite C. apply reads_counted; [exact V|exact R1|rewrite EB; cbn; lia].
    - rewrite C. intros _. left. exact R1.
    - apply not_bang. destruct H as [H|H]; head H.
    - apply key_saved, K.
    - destruct H as [H|H]; head H.
    - destruct (anchor_kind _ _ _ _ _ _ _ E) as (m & ->). destruct (at_is b 0 42); reflexivity.
  Qed.

  Lemma wp_flow_scalar b sc : valid b -> at_is b 0 39 = true \/ at_is b 0 34 = true -> fresh sc ->
    (~ safe o b -> pan) -> WP (fetch_flow_scalar o) b sc.
  Proof.
    intros V H F PAN. unfold fetch_flow_scalar. apply wp_get_buf.
    assert (HH : at_is b 0 39 || at_is b 0 34 = true) by (destruct H as [-> | ->]; [reflexivity|apply orb_true_r]).
    rewrite HH.
    assert (exists c r, b = c :: r /\ (c = 39%N \/ c = 34%N)) as (c & r & EB & PB).
    { destruct H as [H|H]; destruct (at_is_cons _ _ H) as (r & ->); do 2 eexists; (split; [reflexivity|]); auto. }
    pose proof (scan_flow_leaf o c r stats0 (at_is b 0 39) PB) as LF. rewrite <- EB in LF.
    eapply wp_leaf; [exact (LF V)|intros X; apply PAN, not_tame_safe, X|constructor|].
    intros [[tok amt] d] E ((A1 & A2) & RD & T).
    pose proof (reads_shift0 (sc_st sc) _ _ _ RD) as R1.
    pose proof (reads_boundary _ _ _ _ RD) as BD. rewrite skipn_length in BD.
    replace (List.length b - (List.length b - amt)) with amt in BD by lia.
    apply wp_save_key. intros key K. apply wp_upd.
    apply wp_skip; [exact BD|]. apply wp_add_st, wp_here_last.
    apply (disp_content b sc tok amt (sadd (sc_st sc) d) false key tt).
    - exact F.
    - eapply (ct_flow o b _ _ (at_is b 0 39)); [|exact E].
      destruct (at_is b 0 39) eqn:A; [exact A|]. exact HH.
    - apply reads_counted; [exact V|exact R1|rewrite skipn_length; lia].
    - intros _. left. exact R1.
    - apply not_bang. destruct H as [H|H]; head H.
    - apply key_saved, K.
    - destruct H as [H|H]; head H.
    - destruct tok as [[]|[]]; cbn in *; try contradiction; reflexivity.
  Qed.

  Lemma wp_plain b sc : valid b -> at_is b 0 33 = false -> at_is b 0 62 = false -> plain_first b (sc_st sc) (is_block (sc_cxt sc)) -> fresh sc ->
    (~ safe o b -> pan) -> WP (fetch_plain_scalar o) b sc.
  Proof.
    intros V NB NG H F PAN. unfold fetch_plain_scalar. apply wp_get_buf, wp_get_sc.
    eapply wp_leaf; [apply scan_plain_leaf; exact H|intros X; apply PAN, not_ascii_safe, X|constructor|].
    intros [[tok amt] st'] E ((A1 & A2) & RD & T).
    pose proof (reads_boundary _ _ _ _ RD) as BD. rewrite skipn_length in BD.
    replace (List.length b - (List.length b - amt)) with amt in BD by lia.
    apply wp_save_key. intros key K. apply wp_upd.
    apply wp_skip; [exact BD|]. apply wp_upd, wp_here_last.
    apply (disp_content b sc tok amt st' false key tt).
    - exact F.
    - eapply ct_plain; eauto.
    - apply reads_counted; [exact V|exact RD|rewrite skipn_length; lia].
    - intros _. left. exact RD.
    - apply not_bang, NB.
    - apply key_saved, K.
    - exact NG.
    - destruct tok as [[]|[]]; cbn in *; try contradiction; reflexivity.
  Qed.

  Lemma wp_block b sc fold : valid b -> at_is b 0 (if fold : bool then 62 else 124) = true ->
    is_block (sc_cxt sc) = true -> (~ safe o b -> pan) -> WP (fetch_block_scalar o fold) b sc.
  Proof.
    intros V H BL PAN. unfold fetch_block_scalar. apply wp_get_buf, wp_get_sc.
    apply wp_remove_key. intros KR. apply wp_upd.
    assert (exists c r, b = c :: r /\ plain_byte c) as (c & r & EB & PB).
    { destruct (at_is_cons _ _ H) as (r & ->). do 2 eexists. split; [reflexivity|]. destruct fold; repeat split; discriminate. }
    assert (QT : quiet b sc [] b (set_ska true (set_key None sc))).
    { apply qt_key with (k := None); [reflexivity|]. apply (qt_ska _ _ true). constructor. }
    pose proof (scan_block_leaf o c r (sc_st sc) (sc_cxt sc) fold PB) as LF. rewrite <- EB in LF.
    eapply wp_leaf; [exact (leaf_panics _ _ _ LF)| |exact QT|].
    { intros X. apply PAN. intros (_ & K). exact (K 0 (sc_st sc) (sc_cxt sc) fold H X). }
    intros [[tok amt] st'] E ((A1 & A2) & RD & T & EX).
    assert (BD : is_boundary b amt = true).
    { destruct RD as [RD|(N & st1 & RD & _)].
      - pose proof (reads_boundary _ _ _ _ RD) as BD. rewrite skipn_length in BD.
        replace (List.length b - (List.length b - amt)) with amt in BD by lia. exact BD.
      - pose proof (reads_boundary _ _ _ _ RD) as BD.
        assert (LL : List.length (skipn amt b) = 0) by (rewrite N; reflexivity). rewrite skipn_length in LL.
        cbn [List.length] in BD. replace amt with (List.length b - 0) by lia. exact BD. }
    apply wp_skip; [exact BD|]. apply wp_upd, wp_here_last.
    exists [], (set_ska true (set_key None sc)), [mkEntry tok (sread st')].
    split; [reflexivity|]. split; [exact QT|]. split; [apply fresh_none; reflexivity|].
    eapply act_content with (n := amt).
    - eapply ct_block; [exact H|exact BL|]. exact E.
    - reflexivity.
    - apply reads_eof_counted; [exact V|exact RD|rewrite skipn_length; lia].
    - intros _. destruct (lazy_mode o) eqn:LZ; [|left; apply EX; reflexivity].
      destruct RD as [RD|(N & _)]; [left; exact RD|right; auto].
    - apply not_bang. destruct fold; head H.
    - right. left. reflexivity.
    - reflexivity.
    - destruct tok as [[]|[]]; cbn in *; try contradiction; discriminate.
    - destruct tok as [[]|[]]; cbn in *; try contradiction; discriminate.
  Qed.

  Lemma set_block (sc : scanner) : set_cxt (sc_cxt sc) sc = sc.
  Proof. destruct sc; reflexivity. Qed.

  Ltac char H V := let r := fresh "r" in destruct (at_is_cons _ _ H) as (r & ->);
    destruct (valid_byte _ _ V ltac:(reflexivity)) as [BD VR].

  Lemma wp_explicit_key b sc : valid b -> at_is b 0 63 = true -> WP fetch_explicit_key b sc.
  Proof.
    intros V H. unfold fetch_explicit_key. apply wp_get_sc. char H V.
    assert (FIN : forall c pre, roll (sc_cxt sc) (sc_st sc) true = (c, pre) ->
      (is_block (sc_cxt sc) = true -> sc_ska sc = true) ->
      wp o pan (remove_saved_key ;; upd (set_ska (is_block (sc_cxt sc))) ;; advance_st 1 ;; enqueue_here (Tok TKey))
        (63%N :: r) (set_cxt c sc) (fun es => disp_ok (63%N :: r) sc (pre ++ es)) (fun es => quiet (63%N :: r) sc (pre ++ es))).
    { intros c pre E SK. apply wp_remove_key. intros _. apply wp_upd, wp_advance_st; [exact BD|]. apply wp_here_last.
      exists [], (set_key None sc). eexists. split; [reflexivity|]. split.
      - apply qt_key with (k := None); [reflexivity|]. constructor.
      - split; [apply fresh_none; reflexivity|].
        apply (act_key o (63%N :: r) (set_key None sc) r c pre eq_refl SK E). }
    destruct (is_block (sc_cxt sc)) eqn:BL.
    - destruct (sc_ska sc) eqn:SK; cbn [negb]; [|apply wp_err_bind; discriminate].
      apply wp_roll. intros c pre E. exact (FIN c pre E (fun _ => eq_refl)).
    - apply wp_ret_bind. assert (E : roll (sc_cxt sc) (sc_st sc) true = (sc_cxt sc, [])) by (unfold roll; rewrite BL; reflexivity).
      specialize (FIN _ _ E). rewrite set_block in FIN. apply FIN. discriminate.
  Qed.

  Lemma wp_value b sc : valid b -> at_is b 0 58 = true -> fresh sc -> WP fetch_value b sc.
  Proof.
    intros V H F. unfold fetch_value. apply wp_get_sc, wp_upd. char H V.
    assert (OTHER : key_possible_now (sc_key sc) = false ->
      wp o pan (((if is_block (sc_cxt sc) then
         if negb (sc_ska sc) then mlift (Err InvalidValue)
         else roll_indent (sread (sc_st sc)) (slines (sc_st sc)) (scol (sc_st sc)) true
       else mret tt) ;; upd (set_ska (is_block (sc_cxt sc)))) ;; advance_st 1 ;; enqueue_here (Tok TValue))
       (58%N :: r) (set_key None sc) (disp_ok (58%N :: r) sc) (quiet (58%N :: r) sc)).
    { intros NK. apply wp_assoc.
      assert (FIN : forall c pre, roll (sc_cxt sc) (sc_st sc) true = (c, pre) ->
        (is_block (sc_cxt sc) = true -> sc_ska sc = true) ->
        wp o pan (upd (set_ska (is_block (sc_cxt sc))) ;; advance_st 1 ;; enqueue_here (Tok TValue))
          (58%N :: r) (set_cxt c (set_key None sc)) (fun es => disp_ok (58%N :: r) sc (pre ++ es)) (fun es => quiet (58%N :: r) sc (pre ++ es))).
      { intros c pre E SK. apply wp_upd, wp_advance_st; [exact BD|]. apply wp_here_last.
        apply disp_now; [exact F|].
        exact (act_value o (58%N :: r) sc r c pre eq_refl NK SK E). }
      destruct (is_block (sc_cxt sc)) eqn:BL.
      - destruct (sc_ska sc) eqn:SK; cbn [negb]; [|apply wp_err_bind; discriminate].
        apply wp_roll. intros c pre E. exact (FIN c pre E (fun _ => eq_refl)).
      - apply wp_ret_bind. assert (E : roll (sc_cxt sc) (sc_st sc) true = (sc_cxt sc, [])) by (unfold roll; rewrite BL; reflexivity).
        specialize (FIN _ _ E). change (set_cxt (sc_cxt sc) (set_key None sc)) with (set_key None sc) in FIN.
        apply FIN. discriminate. }
    destruct (sc_key sc) as [k|] eqn:K; [|apply OTHER; reflexivity].
    destruct (kp_allowed (k_possible k)) eqn:AL; [|apply OTHER; exact AL].
    apply wp_assoc, wp_roll. intros c pre E. apply wp_assoc, wp_enqueue, wp_upd, wp_advance_st; [exact BD|].
    apply wp_here_last. apply disp_now; [exact F|].
    exact (act_value_key o (58%N :: r) sc r k c pre eq_refl K AL E).
  Qed.

  Lemma wp_flow_start b sc (map : bool) : valid b -> at_is b 0 (if map then 123 else 91) = true -> fresh sc ->
    WP (fetch_flow_collection_start map) b sc.
  Proof.
    intros V H F. unfold fetch_flow_collection_start. apply wp_upd.
    assert (exists r, b = (if map then 123%N else 91%N) :: r /\ is_boundary b 1 = true) as (r & EB & BD).
    { destruct (at_is_cons _ _ H) as (r & ->). exists r. split; [destruct map; reflexivity|].
      apply valid_byte; [exact V|destruct map; reflexivity]. }
    apply wp_advance_st; [exact BD|]. apply wp_here, wp_save_key. intros key K. apply wp_upd_last.
    assert (S1 : skipn 1 b = r) by (rewrite EB; reflexivity). rewrite S1.
    apply disp_now; [exact F|]. apply (act_open o b sc map r key EB).
    destruct K as [K|K]; [left; exact K|right; right; exact K].
  Qed.

  Lemma wp_flow_end b sc (map : bool) : valid b -> at_is b 0 (if map then 125 else 93) = true ->
    WP (fetch_flow_collection_end map) b sc.
  Proof.
    intros V H. unfold fetch_flow_collection_end. apply wp_remove_key. intros _. apply wp_get_sc.
    assert (exists r, b = (if map then 125%N else 93%N) :: r /\ is_boundary b 1 = true) as (r & EB & BD).
    { destruct (at_is_cons _ _ H) as (r & ->). exists r. split; [destruct map; reflexivity|].
      apply valid_byte; [exact V|destruct map; reflexivity]. }
    destruct (flow_decrement (sc_cxt (set_key None sc))) as [c|e| |] eqn:E.
    2: { apply wp_err_bind. unfold flow_decrement in E. destruct (c_flow _); congruence. }
    2-3: unfold flow_decrement in E; destruct (c_flow _); discriminate.
    apply wp_ok_bind, wp_upd, wp_upd, wp_advance_st; [exact BD|]. apply wp_here_last.
    assert (S1 : skipn 1 b = r) by (rewrite EB; reflexivity). rewrite S1.
    exists [], (set_key None sc). eexists. split; [reflexivity|]. split.
    - apply qt_key with (k := None); [reflexivity|]. constructor.
    - split; [apply fresh_none; reflexivity|]. exact (act_close o b (set_key None sc) map r c EB E).
  Qed.

  Lemma wp_block_entry b sc : valid b -> at_is b 0 45 = true -> WP fetch_block_collection_entry b sc.
  Proof.
    intros V H. unfold fetch_block_collection_entry. apply wp_get_sc. char H V.
    destruct (is_block (sc_cxt sc)) eqn:BL; [|apply wp_err_bind; discriminate].
    destruct (sc_ska sc) eqn:SK; [|apply wp_err_bind; discriminate]. cbn [andb].
    apply wp_roll. intros c pre E. apply wp_upd, wp_remove_key. intros _. apply wp_upd, wp_advance_st; [exact BD|].
    apply wp_here_last. exists [], (set_key None sc). eexists. split; [reflexivity|]. split.
    - apply qt_key with (k := None); [reflexivity|]. constructor.
    - split; [apply fresh_none; reflexivity|].
      exact (act_dash o (45%N :: r) (set_key None sc) r c pre eq_refl BL SK E).
  Qed.

  Lemma at_is_same x r c : at_is (x :: r) 0 c = (x =? c)%N.
  Proof. reflexivity. Qed.

  Lemma wp_dispatch b sc : valid b -> fresh sc -> (~ safe o b -> pan) -> WP (dispatch o) b sc.
  Proof.
    intros V F PAN. unfold dispatch. apply wp_get_buf, wp_get_sc.
    destruct (at_is b 0 37 && Nat.eqb (scol (sc_st sc)) 0) eqn:T1.
    { apply andb_prop in T1 as [A B]. apply Nat.eqb_eq in B. apply wp_directive; assumption. }
    destruct ((starts_with b (bytes "---") || starts_with b (bytes "...")) &&
              (Nat.eqb (scol (sc_st sc)) 0 && is_wsZ_at b 3)) eqn:T2.
    { apply andb_prop in T2 as [A B]. apply andb_prop in B as [B C]. apply Nat.eqb_eq in B.
      apply wp_document_marker; auto.
      destruct (starts_with b (bytes "---")) eqn:S.
      - pose proof S as S'. apply starts_with_iff in S' as (r & E).
        replace (at_is b 0 45) with true by (rewrite E; reflexivity). exact S.
      - cbn [orb] in A. pose proof A as S'. apply starts_with_iff in S' as (r & E).
        replace (at_is b 0 45) with false by (rewrite E; reflexivity). exact A. }
    destruct (at_is b 0 123 || at_is b 0 91) eqn:T3.
    { apply wp_flow_start; auto. destruct (at_is b 0 123) eqn:A; auto. }
    destruct (at_is b 0 125 || at_is b 0 93) eqn:T4.
    { apply wp_flow_end; auto. destruct (at_is b 0 125) eqn:A; auto. }
    destruct (at_is b 0 44) eqn:T5; [apply wp_flow_entry; auto|].
    destruct (at_is b 0 45 && is_wsZ_at b 1) eqn:T6.
    { apply andb_prop in T6 as [A B]. apply wp_block_entry; auto. }
    destruct (at_is b 0 63 && (is_flow (sc_cxt sc) || is_wsZ_at b 1)) eqn:T7.
    { apply andb_prop in T7 as [A B]. apply wp_explicit_key; auto. }
    destruct (at_is b 0 58 && (is_wsZ_at b 1 || is_flow (sc_cxt sc))) eqn:T8.
    { apply andb_prop in T8 as [A B]. apply wp_value; auto. }
    destruct (at_is b 0 38 || at_is b 0 42) eqn:T9.
    { apply orb_prop in T9. apply wp_anchor; auto. }
    destruct (at_is b 0 33) eqn:T10; [apply wp_tag; auto|].
    destruct ((at_is b 0 124 || at_is b 0 62) && is_block (sc_cxt sc)) eqn:T11.
    { apply andb_prop in T11 as [A B]. apply wp_block; auto. destruct (at_is b 0 62) eqn:X; auto.
      rewrite orb_false_r in A. exact A. }
    destruct (at_is b 0 39 || at_is b 0 34) eqn:T12.
    { apply orb_prop in T12. apply wp_flow_scalar; auto. }
    destruct (is_plain_scalar b (sc_cxt sc)) eqn:T13.
    2: { apply wp_err. discriminate. }
    apply wp_plain; auto.
    { unfold is_plain_scalar in T13. destruct (is_wsZ b); [discriminate|]. destruct b as [|x r]; [reflexivity|].
      rewrite at_is_same. destruct (x =? 62)%N eqn:X; [|reflexivity]. apply N.eqb_eq in X. subst x. cbn in T13. discriminate. }
    unfold is_plain_scalar in T13.
    destruct (is_wsZ b) eqn:W; [discriminate|]. destruct b as [|x r]; [discriminate|].
    repeat split; auto.
    - unfold is_doc_indicator. rewrite <- andb_assoc, andb_comm, <- andb_assoc, (andb_comm (is_wsZ_at _ 3)). exact T2.
    - rewrite at_is_same in *. destruct (x =? 35)%N eqn:X; [|reflexivity].
      rewrite !orb_true_r in T13. cbn [orb] in T13. discriminate.
    - unfold plain_end. unfold is_block. rewrite negb_involutive.
      unfold is_flow_ind_at. cbn [nth_error]. unfold is_flow_ind_byte. unfold at_is in T3, T4, T5, T8 |- *. cbn [nth_error] in T3, T4, T5, T8 |- *.
      apply orb_false_elim in T3 as [-> ->]. apply orb_false_elim in T4 as [-> ->]. rewrite T5.
      cbn [orb]. rewrite andb_false_r, orb_false_r.
      destruct (x =? 58)%N; [|reflexivity]. cbn [andb] in *. apply orb_false_elim in T8 as [-> _]. reflexivity.
  Qed.
End Round.

(** ** Rounds *)
Lemma quiet_trans b sc es b1 sc1 : quiet b sc es b1 sc1 ->
  forall fs b2 sc2, quiet b1 sc1 fs b2 sc2 -> quiet b sc (es ++ fs) b2 sc2.
Proof.
  induction 1; intros fs b2 sc2 HQ; cbn [app].
  - exact HQ.
  - eapply qt_ws; eauto.
  - eapply qt_key; eauto.
  - eapply qt_ska; eauto.
  - rewrite <- app_assoc. eapply qt_ends; eauto.
Qed.

Lemma quiet_reads b sc es b' sc' : quiet b sc es b' sc' -> reads b (sc_st sc) b' (sc_st sc').
Proof.
  induction 1; try assumption; [constructor|]. eapply reads_trans; eauto.
Qed.
Lemma quiet_state b sc es b' sc' : quiet b sc es b' sc' ->
  sc_state sc' = sc_state sc /\ sc_offset sc' = sc_offset sc.
Proof. induction 1; cbn in *; auto. Qed.

Lemma pop_level k : forall l i i' l' n, pop_indents l i (Some k) = (i', l', n) -> l' = [] \/ i' <= k.
Proof.
  induction l as [|e l IH]; intros i i' l' n; cbn [pop_indents indent_gt].
  - destruct (Nat.ltb k i); intros [= <- <- _]; auto.
  - destruct (Nat.ltb_spec k i) as [G|G]; [|intros [= <- <- _]; auto].
    destruct (pop_indents l (ie_indent e) (Some k)) as [[i2 l2] n2] eqn:E. intros [= <- <- _]. eapply IH, E.
Qed.
Lemma decrement_level c k c' n : indent_decrement c (Some k) = (c', n) -> is_block c' = true ->
  c_indents c' = [] \/ c_indent c' <= k.
Proof.
  unfold indent_decrement. destruct (is_block c) eqn:B; [|intros [= <- _]; congruence].
  destruct (pop_indents _ _ _) as [[i l] m] eqn:E. intros [= <- _] _. eapply pop_level, E.
Qed.

Lemma skips_rest c s s1 : skips c s s1 -> skips false s1 s1.
Proof. induction 1; auto; constructor; auto. Qed.

Lemma wp_round o b sc : valid b -> sc_state sc <> SDone ->
  wp o (~ safe o b) (scan_next_token o) b sc (fun es b' sc' _ => round o b sc es b' sc') (quiet b sc).
Proof.
  intros V ND. unfold scan_next_token. apply wp_get_sc. destruct (sc_state sc) eqn:ST; [| |congruence].
  { unfold fetch_stream_start. apply wp_get_sc. rewrite ST. apply wp_upd, wp_upd, wp_here_last.
    apply (rd_start o b sc ST). }
  (* white space *)
  apply wp_bind with (P := fun es b1 sc1 _ => es = [] /\ exists st1 ska, skips false b b1 /\ reads b (sc_st sc) b1 st1 /\
      sc1 = mkSc (sc_offset sc) (sc_state sc) ska st1 (sc_key sc) (sc_cxt sc)) (X := quiet b sc); auto.
  { unfold sc_eat_whitespace. apply wp_get_buf.
    eapply wp_leaf; [apply eat_ws_leaf|apply not_ascii_safe|constructor|].
    intros [rest d] EW RD. apply eat_ws_skips in EW. pose proof (reads_shift0 (sc_st sc) _ _ _ RD) as R1.
    destruct (Nat.eqb (slines d) 0).
    - apply wp_ret_bind, wp_skip; [exact (reads_boundary _ _ _ _ RD)|]. apply wp_upd_last.
      split; [reflexivity|]. rewrite (proj1 (reads_consumed _ _ _ _ RD)). do 2 eexists. split; [exact EW|]. split; [exact R1|reflexivity].
    - apply wp_upd, wp_skip; [exact (reads_boundary _ _ _ _ RD)|]. apply wp_upd_last.
      split; [reflexivity|]. rewrite (proj1 (reads_consumed _ _ _ _ RD)). do 2 eexists. split; [exact EW|]. split; [exact R1|reflexivity]. }
  intros es b1 sc1 _ (-> & st1 & ska & SK1 & R1 & E1). cbn [app].
  assert (V1 : valid b1) by exact (reads_valid _ _ _ _ R1 V).
  pose proof (skips_rest _ _ _ SK1) as SR.
  assert (Q1 : quiet b sc [] b1 sc1).
  { eapply qt_ws; [exact SK1|exact R1|]. rewrite E1. constructor. }
  (* stale key *)
  apply wp_bind with (P := fun es b2 sc2 _ => es = [] /\ b2 = b1 /\ fresh sc2 /\ quiet b sc [] b1 sc2) (X := quiet b sc); auto.
  { unfold expire_stale_saved_key. apply wp_get_sc. destruct (sc_key sc1) as [k|] eqn:K.
    - destruct (kp_allowed (k_possible k) && _) eqn:STALE.
      + destruct (kp_required (k_possible k)); [apply wp_err; discriminate|].
        apply wp_upd_last. split; [reflexivity|]. split; [reflexivity|]. split.
        * unfold fresh. cbn. discriminate.
        * replace (@nil entry) with (@nil entry ++ []) by reflexivity.
          eapply quiet_trans; [exact Q1|]. eapply qt_key; [|constructor]. reflexivity.
      + apply wp_ret. split; [reflexivity|]. split; [reflexivity|]. split; [|exact Q1].
        unfold fresh. rewrite K. intros A. rewrite A in STALE. cbn [andb] in STALE.
        apply orb_false_elim in STALE as [X Y]. apply Nat.ltb_ge in X. apply N.ltb_ge in Y. auto.
    - apply wp_ret. split; [reflexivity|]. split; [reflexivity|]. split; [|exact Q1].
      apply fresh_none, K. }
  intros es b2 sc2 _ (-> & -> & F2 & Q2). cbn [app]. clear E1 Q1 sc1.
  (* indentation *)
  apply wp_get_sc, wp_unroll. intros n c CL _ ID.
  assert (Q3 : quiet b sc (ends n (sread (sc_st sc2))) b1 (set_cxt c sc2)).
  { rewrite <- (app_nil_l (ends _ _)). eapply quiet_trans; [exact Q2|].
    rewrite <- (app_nil_r (ends _ _)). eapply qt_ends; [exact CL|apply cause_column; exact ID|exact SR|constructor]. }
  assert (L3 : level (set_cxt c sc2)) by (intros BL; apply (decrement_level _ _ _ _ ID BL)).
  set (e3 := ends n (sread (sc_st sc2))) in *. set (sc3 := set_cxt c sc2) in *.
  assert (F3 : fresh sc3) by exact F2. clearbody e3 sc3.
  apply wp_bind with (P := fun es b4 sc4 _ => b4 = b1 /\ fresh sc4 /\ (dashed b1 sc4 \/ undashed sc3 sc4) /\ quiet b1 sc3 es b1 sc4)
    (X := fun fs => quiet b sc (e3 ++ fs)); auto.
  { unfold pop_zero_indent_sequence. apply wp_get_sc, wp_get_buf.
    assert (RET : dashed b1 sc3 -> wp o (~ safe o b) (mret tt) b1 sc3
       (fun es b4 sc4 _ => b4 = b1 /\ fresh sc4 /\ (dashed b1 sc4 \/ undashed sc3 sc4) /\ quiet b1 sc3 es b1 sc4) (fun fs => quiet b sc (e3 ++ fs))).
    { intros DS. apply wp_ret. split; [reflexivity|]. split; [exact F3|]. split; [left; exact DS|constructor]. }
    destruct (c_indents (sc_cxt sc3)) as [|e l] eqn:I; [apply RET; intros e l E; congruence|].
    destruct (_ && _) eqn:ZERO.
    2: { apply RET. intros e' l' E Z M D. assert (e' = e) as -> by congruence. rewrite Z, M, D in ZERO.
         cbn [negb] in ZERO. rewrite !andb_true_r in ZERO. apply Nat.ltb_ge in ZERO. exact ZERO. }
    unfold pop_indent. rewrite I. apply wp_upd.
    cbn [enqueue_ends]. apply wp_enqueue, wp_ret. split; [reflexivity|]. split; [exact F3|]. split.
    { right. exists e. cbn [set_cxt sc_cxt c_indents]. apply andb_prop in ZERO as [ZERO _]. apply andb_prop in ZERO as [ZERO Z3].
      apply andb_prop in ZERO as [_ Z2]. split; [exact I|]. split; [exact Z2|]. destruct (ie_map e); [discriminate|reflexivity]. }
    change [mkEntry (Tok TBlockEnd) (sread (sc_st sc3))] with (ends 1 (sread (sc_st sc3)) ++ []).
    apply andb_prop in ZERO as [ZERO Z4]. apply andb_prop in ZERO as [ZERO Z3]. apply andb_prop in ZERO as [_ Z2].
    eapply qt_ends; [| |exact SR|constructor].
    - unfold closes. rewrite I. cbn. repeat split; auto. lia.
    - apply (cause_zero _ _ _ _ e l I Z2); [destruct (ie_map e); [discriminate|reflexivity]
        |destruct (at_is b1 0 45); [discriminate|reflexivity]|]. unfold pop_indent. rewrite I. reflexivity. }
  intros e4 b4 sc4 _ (-> & F4 & D4 & Q34).
  assert (Q4 : quiet b sc (e3 ++ e4) b1 sc4) by (eapply quiet_trans; eauto).
  apply wp_get_buf, wp_get_sc.
  assert (ST4 : sc_state sc4 = SStream) by (destruct (quiet_state _ _ _ _ _ Q4); congruence).
  rewrite ST4. rewrite orb_false_r. destruct (is_empty b1) eqn:EM.
  - (* end *)
    assert (b1 = []) as -> by (destruct b1; [reflexivity|discriminate]).
    unfold fetch_stream_end. apply wp_get_sc, wp_get_buf. rewrite ST4. cbn [is_empty].
    apply wp_unroll. intros m c' CL' EM' ID'. apply wp_remove_key. intros KR. apply wp_upd, wp_here_last.
    assert (Q5 : quiet b sc ((e3 ++ e4) ++ ends m (sread (sc_st sc4))) [] (set_key None (set_cxt c' sc4))).
    { eapply quiet_trans; [exact Q4|]. rewrite <- (app_nil_r (ends _ _)). eapply qt_ends; [exact CL'| |exact SR|].
      { apply cause_document; [exact ID'|]. left. reflexivity. }
      eapply qt_key; [|constructor]. reflexivity. }
    cbv beta. rewrite !app_assoc in *.
    apply (rd_end o b sc _ _ ST Q5 eq_refl). intros BL. cbn. apply EM'; [|reflexivity].
    destruct CL' as (_ & _ & FL & _). unfold is_block, is_flow in *. cbn in BL. rewrite FL in BL. exact BL.
  - eapply wp_leaf; [apply (cache_leaf o b1 4 False)|intros []|cbv beta; rewrite app_nil_r; exact Q4|].
    intros _ _ _.
    eapply wp_imp; [apply (wp_dispatch o (~ safe o b) b1 sc4 V1 F4)| |].
    + intros X Y. apply X. destruct (reads_suffix _ _ _ _ (quiet_reads _ _ _ _ _ Q4)) as (k & E & _).
      rewrite E. apply safe_skipn, Y.
    + intros es b' sc' u (e1 & sc1 & fs & -> & QD & FD & AD).
      eapply rd_token; [exact ST|exact Q3|exact SR|exact L3|exact Q34|exact D4|exact QD|exact FD|exact AD].
    + intros es b' sc' QD. rewrite app_assoc. eapply quiet_trans; [exact Q4|exact QD].
Qed.
