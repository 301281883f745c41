(** Document markers and directives: one round of the scanner. *)
From Verif Require Import NameFacts TagFacts.
From Verif Require Export YamlBlock.
From Verif Require Import StreamFacts ScanSpec.
From Verif Require Import SpecYaml.
From Coq Require Import Lia ZifyBool ZifyN ZifyNat.
Open Scope nat_scope.

(** ** Closing all collections *)
(** The indentation below all open collections. *)
Fixpoint ground (l : list indent_entry) (i : nat) : nat :=
  match l with [] => i | e :: r => ground r (ie_indent e) end.
Definition level_ground (c : context) : Prop := c_flow c = 0 /\ ground (c_indents c) (c_indent c) = 0.
Lemma pops_ground col : forall l i, let '(i', r, n) := pop_indents l i col in
  n + List.length r = List.length l /\ ground r i' = ground l i.
Proof.
  induction l as [|e l IH]; intros i; cbn [pop_indents]; [destruct (indent_gt i col); split; reflexivity|].
  destruct (indent_gt i col); [|split; reflexivity]. specialize (IH (ie_indent e)). destruct (pop_indents l (ie_indent e) col) as [[i' r] n]. cbn [List.length ground]. destruct IH. split; [lia|assumption].
Qed.
Lemma pops_all : forall l i, pop_indents l i None = (ground l i, [], List.length l).
Proof. induction l as [|e l IH]; intros i; cbn [pop_indents indent_gt]; [reflexivity|]. rewrite IH. reflexivity. Qed.
(** Closing some collections. *)
Definition closing (n : nat) (c c' : context) : Prop :=
  n + List.length (c_indents c') = List.length (c_indents c) /\ c_flow c' = c_flow c /\ c_started c' = c_started c /\
  ground (c_indents c') (c_indent c') = ground (c_indents c) (c_indent c).
Lemma unrolled_closing c st : closing (snd (unrolled c st)) c (fst (unrolled c st)).
Proof.
  unfold unrolled, indent_decrement. destruct (is_block c); [|repeat split].
  pose proof (pops_ground (Some (scol st)) (c_indents c) (c_indent c)) as P. destruct (pop_indents _ _ _) as [[i r] n]. destruct P. repeat split; assumption.
Qed.
Lemma dropped_closing c st b : closing (snd (dropped c st b)) c (fst (dropped c st b)).
Proof.
  unfold dropped. destruct (c_indents c) as [|e r] eqn:E; [repeat split|].
  destruct (_ && _); [|repeat split]. unfold pop_indent, closing. rewrite E. repeat split.
Qed.
Lemma closing_trans n m a b c : closing n a b -> closing m b c -> closing (n + m) a c.
Proof. intros (A1 & A2 & A3 & A4) (B1 & B2 & B3 & B4). repeat split; try congruence. lia. Qed.
Lemma ends_app a b x : ends a x ++ ends b x = ends (a + b) x.
Proof. intros. unfold ends. symmetry. apply repeat_app. Qed.
Lemma unroll_all n ska p key c q : level_ground c ->
  unroll_indent None (state_of n (mkCfg p ska key c) q) =
    (state_of n (mkCfg p ska key (mkCxt 0 0 [] (c_started c))) (pushes (ends (List.length (c_indents c)) (offset p)) q), Ok tt).
Proof.
  intros [F G]. assert (BL : is_block c = true) by (unfold is_block, is_flow; rewrite F; reflexivity).
  unfold unroll_indent, state_of, scan_of. cbn [g_place g_ska g_key g_cxt]. steps. rewrite BL. unfold indent_decrement. rewrite BL, pops_all, F, G. steps. apply enqueue_ends_pushes.
Qed.

Section Marks.
  Variable o : flags.
  Hypothesis NE : extendable o = false.
  Hypothesis NL : lazy_mode o = false.

  (** A round that closes all collections. *)
  Lemma closing_step p p0 ska key c es (g : bool -> cfg) : all_ascii (text p) -> apart p p0 -> text p0 <> [] -> easy key -> level_ground c ->
    (forall ska2 key2 c2 n q, easy key2 -> level_ground c2 -> dispatch o (state_of n (mkCfg p0 ska2 key2 c2) q) =
      (state_of n (g (c_started c2)) (pushes (ends (List.length (c_indents c2)) (offset p0) ++ es) q), Ok tt)) ->
    turn o (mkCfg p ska key c) (ends (List.length (c_indents c)) (offset p0) ++ es) (g (c_started c)).
  Proof.
    intros A AP NN K [F G] D n q. rewrite (settles o p p0 n ska key c q NE A AP (easy_timely _ _ K)). cbv zeta.
    set (c1 := unrolled c (snd p0)). set (c2 := dropped (fst c1) (snd p0) (text p0)).
    assert (C : closing (snd c1 + snd c2) c (fst c2)) by (eapply closing_trans; [apply unrolled_closing|apply dropped_closing]).
    destruct C as (C1 & C2 & C3 & C4).
    destruct (text p0) as [|x r] eqn:ET; [congruence|]. cbn [is_empty].
    rewrite D; [|apply easy_expired, K|split; [rewrite C2; exact F|rewrite C4; exact G]].
    rewrite <- pushes_app, app_assoc, ends_app, C1, C3. reflexivity.
  Qed.

  Lemma mark_moves (start : bool) p p1 : all_ascii (text p) -> document_mark (if start then 45 else 46)%N p p1 ->
    moves p p1 /\ offset p1 = 3 + offset p /\ line p1 = line p.
  Proof.
    intros A (C & E & _ & ST). set (x := (if start then 45 else 46)%N) in *.
    assert (X : x <> 10%N /\ x <> 13%N /\ (x < 128)%N) by (unfold x; destruct start; lia).
    assert (M : forall q q', all_ascii (text q) -> char x q q' -> moves q q') by (intros q q' AQ CH; apply (char_moves x q q' AQ CH); lia).
    set (pa := ([x; x] ++ text p1, mkStats (S (offset p)) (line p) (S (column p))) : place).
    set (pb := ([x] ++ text p1, mkStats (S (offset pa)) (line pa) (S (column pa))) : place).
    assert (M1 : moves p pa) by (apply M; [exact A|split; [exact E|reflexivity]]).
    pose proof (moves_ascii _ _ M1 A) as A1.
    assert (M2 : moves pa pb) by (apply M; [exact A1|split; reflexivity]).
    pose proof (moves_ascii _ _ M2 A1) as A2.
    assert (M3 : moves pb p1). { apply M; [exact A2|]. split; [reflexivity|]. rewrite ST. unfold pb, pa, offset, line, column in *. cbn [fst snd sread slines scol]. rewrite C. reflexivity. }
    split; [eauto using moves_trans|]. unfold offset at 1, line at 1. rewrite ST. split; reflexivity.
  Qed.
  Lemma dispatch_mark (start : bool) p p1 ska key c n q : all_ascii (text p) -> document_mark (if start then 45 else 46)%N p p1 -> easy key -> level_ground c ->
    dispatch o (state_of n (mkCfg p ska key c) q) =
      (state_of n (mkCfg p1 false None (mkCxt 0 0 [] (c_started c)))
         (pushes (ends (List.length (c_indents c)) (offset p) ++ [mkEntry (Tok (if start then TDocumentStart else TDocumentEnd)) (offset p1)]) q), Ok tt).
  Proof.
    intros A DM K G. pose proof (mark_moves start p p1 A DM) as (M & _). pose proof (moves_ascii _ _ M A) as A1.
    destruct DM as (C & E & L & S). apply loose_wsZ in L.
    assert (D : dispatch o (state_of n (mkCfg p ska key c) q) = fetch_document_marker start (state_of n (mkCfg p ska key c) q)).
    { unfold state_of, scan_of. cbn [g_place g_ska g_key g_cxt]. unfold dispatch. steps. cbv zeta. rewrite E. unfold column in C. rewrite C.
      assert (W : is_wsZ_at ([if start then 45 else 46; if start then 45 else 46; if start then 45 else 46]%N ++ text p1) 3 = true) by exact L.
      destruct start; rewrite W; destruct (text p1); reflexivity. }
    rewrite D. unfold fetch_document_marker. erewrite run_bind by (apply unroll_all, G). unfold state_of at 1, scan_of at 1. cbn [g_place g_ska g_key g_cxt].
    erewrite run_bind by (apply remove_easy, K). erewrite run_bind by reflexivity. cbn [m_buf m_sc m_q set_ska sc_offset sc_state sc_ska sc_st sc_key sc_cxt].
    assert (AV : forall sc q, advance_st 3 (mkMs (text p) sc q) = (mkMs (text p1) (set_st (supd (sc_st sc) 3 0 3) sc) q, Ok tt)).
    { intros sc q0. unfold advance_st. rewrite E. unfold advance, mbind, get_buf, mlift, put_buf. cbn [m_buf].
      change 3 with (List.length [if start then 45 else 46; if start then 45 else 46; if start then 45 else 46]%N) at 1. rewrite skip_app by (apply valid_head, valid_text, A1). reflexivity. }
    erewrite run_bind by apply AV. rewrite pushes_app. unfold state_of, scan_of, set_st, supd. cbn [g_place g_ska g_key g_cxt m_buf m_sc m_q sc_offset sc_state sc_ska sc_st sc_key sc_cxt].
    unfold offset at 2. rewrite S. unfold column in C. unfold enqueue_here. steps. unfold enqueue. cbn. unfold offset, line. rewrite C. repeat f_equal; lia.
  Qed.
  Lemma mark_step (start : bool) p p0 p1 ska key c : all_ascii (text p) -> apart p p0 -> document_mark (if start then 45 else 46)%N p0 p1 -> easy key -> level_ground c ->
    turn o (mkCfg p ska key c) (ends (List.length (c_indents c)) (offset p0) ++ [mkEntry (Tok (if start then TDocumentStart else TDocumentEnd)) (offset p1)])
      (mkCfg p1 false None (mkCxt 0 0 [] (c_started c))).
  Proof.
    intros A AP DM K G. pose proof (moves_ascii _ _ (apart_moves _ _ AP) A) as A0.
    apply (closing_step p p0 ska key c _ (fun b => mkCfg p1 false None (mkCxt 0 0 [] b)) A AP); auto.
    - destruct DM as (_ & -> & _). destruct start; discriminate.
    - intros. apply dispatch_mark; assumption.
  Qed.

  (** ** Directives *)
  Definition directive_name (k : directive_kind) : str := match k with KVersion => yaml | KTag => bytes "%TAG" end.
  Definition directive_token (d : SpecYaml.directive) (tok : token) : Prop :=
    match d with
    | Version a b => tok = TVersionDirective a b
    | TagPrefix h s => exists ch cs, tok = TTagDirective ch cs /\ cow_str ch = h /\ cow_str cs = s
    end.
  Lemma name_long k : List.length (directive_name k) = 1 + directive_len k.
  Proof. destruct k; reflexivity. Qed.
  Lemma directive_scanned p d p' : all_ascii (text p) -> directive_at p d p' -> exists k base tok dd,
    column p = 0 /\ moves p p' /\ text p = directive_name k ++ base /\
    scan_directive o base (supd stats0 (1 + directive_len k) 0 (1 + directive_len k)) k = Ok (tok, text p', dd) /\ directive_token d tok.
  Proof.
    intros A [w d1 d2 a b p1 C E WN W VN1 VN2 DE M|w1 h w2 t s c r p1 C E WN1 W1 FH WN2 W2 SP TN ER CI M]; pose proof (moves_ascii _ _ M A) as A1; pose proof (valid_text _ A1) as V; pose proof A as A0; rewrite E in A0.
    - pose proof VN1 as (_ & F1 & _). pose proof VN2 as (_ & F2 & _).
      assert (V2 : valid (46%N :: d2 ++ text p1)). { apply (NameFacts.ascii_valid [46%N]); [repeat constructor|]. apply NameFacts.ascii_valid; [apply digit_ascii, F2|exact V]. }
      assert (SD : exists dd, scan_directive o (w ++ d1 ++ 46%N :: d2 ++ text p1) (supd stats0 5 0 5) KVersion = Ok (TVersionDirective a b, text p1, dd)).
      { destruct (directive_run o w d1 (46%N :: d2 ++ text p1) (supd stats0 5 0 5) NE W F1 V2) as [(a' & VN & ->)|[NV _]].
        - apply digits_no_blank; [exact F1|]. unfold SpecNames.not_white_space. lia.
        - intros x r' X. injection X as <- _. unfold SpecNames.digit. lia.
        - cbn [N.eqb Pos.eqb]. cbv zeta. rewrite BasicFacts.adv1 by (apply valid_head, NameFacts.ascii_valid; [apply digit_ascii, F2|exact V]).
          cbn [bind]. destruct (version_run o d2 (text p1) NE F2 DE) as [(b' & VN2' & ->)|[NV _]]; [|exfalso; eauto].
          cbn [bind]. rewrite adv_run by assumption. cbn [bind].
          assert (a' = a) as -> by (destruct VN as (_ & _ & -> & _), VN1 as (_ & _ & -> & _); reflexivity).
          assert (b' = b) as -> by (destruct VN2' as (_ & _ & -> & _), VN2 as (_ & _ & -> & _); reflexivity). eauto.
        - exfalso. eauto. }
      destruct SD as (dd & SD). exists KVersion, (w ++ d1 ++ 46%N :: d2 ++ text p1), (TVersionDirective a b), dd. exact (conj C (conj M (conj E (conj SD eq_refl)))).
    - destruct (BasicFacts.tag_directive_decodes o h w2 t s c r (supd (supd stats0 4 0 4) (List.length w1) 0 (List.length w1)) FH W2 WN2 SP TN CI) as (tok & ST & ch & cs & -> & EH & ES).
      exists KTag, (w1 ++ h ++ w2 ++ t ++ text p1), (TTagDirective ch cs). eexists. split; [exact C|]. split; [exact M|]. split; [exact E|].
      split; [|exists ch, cs; auto]. unfold scan_directive. rewrite BasicFacts.eat_blanks; [|assumption|]. cbn [bind]. rewrite ER. change (1 + directive_len KTag) with 4.
      rewrite ST. cbn [bind]. rewrite !app_assoc. rewrite <- (app_assoc h), skip_app by (rewrite <- ER; apply valid_head, V). cbn [bind]. reflexivity.
      destruct FH as (nm & -> & _). cbn. lia.
  Qed.
  Lemma dispatch_directive p d p' : all_ascii (text p) -> directive_at p d p' -> exists tok, directive_token d tok /\
    forall ska key c n q, easy key -> level_ground c ->
    dispatch o (state_of n (mkCfg p ska key c) q) =
      (state_of n (mkCfg p' false None (mkCxt 0 0 [] (c_started c)))
         (pushes (ends (List.length (c_indents c)) (offset p) ++ [mkEntry (Tok tok) (offset p')]) q), Ok tt).
  Proof.
    intros A D. destruct (directive_scanned p d p' A D) as (k & base & tok & dd & C & M & E & SD & T). exists tok. split; [exact T|].
    intros ska key c n q K G. pose proof (moves_ascii _ _ M A) as A1.
    assert (AB : all_ascii base) by (rewrite E in A; apply Forall_app in A; apply A).
    assert (DI : dispatch o (state_of n (mkCfg p ska key c) q) = fetch_directive o (state_of n (mkCfg p ska key c) q)).
    { unfold state_of, scan_of. cbn [g_place g_ska g_key g_cxt]. unfold dispatch. steps. cbv zeta. rewrite E. unfold column in C. rewrite C. destruct k; reflexivity. }
    rewrite DI. unfold fetch_directive. erewrite run_bind by reflexivity. change (m_buf (state_of n (mkCfg p ska key c) q)) with (text p).
    assert (at_is (text p) 0 37 = true) as -> by (rewrite E; destruct k; reflexivity). cbn [negb]. cbv iota.
    assert (AD : adv (text p) stats0 (1 + directive_len k) = Ok (base, supd stats0 (1 + directive_len k) 0 (1 + directive_len k))).
    { rewrite E, <- name_long. apply adv_app, valid_head, valid_text, AB. }
    erewrite run_bind; [|unfold mlift; rewrite (cache_at_static _ _ _ _ NE); reflexivity].
    assert (SK : exists nm, text p = 37%N :: nm ++ base /\ directive_kind_of (nm ++ base) = Ok k).
    { rewrite E. destruct k; [exists (bytes "YAML")|exists (bytes "TAG")]; (split; [reflexivity|]); destruct base; reflexivity. }
    destruct SK as (nm & EN & DK).
    assert (SK : skip (E := scan_error) (text p) 1 = Ok (nm ++ base)).
    { rewrite EN. apply (skip_app [37%N]). apply valid_head, valid_text. rewrite EN in A. exact (Forall_inv_tail A). }
    erewrite run_bind; [|unfold mlift; rewrite SK; reflexivity].
    erewrite run_bind; [|unfold mlift; rewrite DK; reflexivity].
    erewrite run_bind; [|unfold mlift; rewrite AD; reflexivity]. cbv beta iota.
    erewrite run_bind; [|unfold mlift; rewrite SD; reflexivity]. cbv beta iota.
    erewrite run_bind by (apply (unroll_all n ska p key c q G)). unfold state_of at 1, scan_of at 1. cbn [g_place g_ska g_key g_cxt].
    erewrite run_bind by (apply remove_easy, K). erewrite run_bind by reflexivity. cbn [m_buf m_sc m_q set_ska sc_offset sc_state sc_ska sc_st sc_key sc_cxt].
    pose proof (leaf_inv _ _ _ _ _ (scan_directive_leaf o base _ k) SD) as RD. cbv beta iota in RD.
    assert (R0 : reads (text p) stats0 base (supd stats0 (1 + directive_len k) 0 (1 + directive_len k))).
    { replace base with (skipn (1 + directive_len k) (text p)) by (rewrite E, <- name_long, skipn_app, skipn_all, Nat.sub_diag; reflexivity).
      apply reads_adv.
      - rewrite E, app_length, name_long. lia.
      - intros j J. rewrite E. destruct k; cbn in J; do 5 (destruct j as [|j]; [first [reflexivity|lia]|]); lia.
      - rewrite E, <- name_long. apply boundary_app. apply valid_head, valid_text, AB. }
    pose proof (reads_trans _ _ _ _ _ _ R0 RD) as R1.
    pose proof (reads_det _ _ _ _ _ M (reads_shift0 (snd p) _ _ _ R1)) as EQ.
    erewrite run_bind by (eapply adv_to; eassumption).
    unfold add_st. erewrite run_bind by reflexivity. unfold set_st, set_ska. cbn [m_buf m_sc m_q sc_offset sc_state sc_ska sc_st sc_key sc_cxt].
    rewrite pushes_app. unfold state_of, scan_of. cbn [g_place g_ska g_key g_cxt]. unfold text, offset in *. rewrite EQ. reflexivity.
  Qed.
  Lemma directive_step p p0 d p1 : all_ascii (text p) -> apart p p0 -> directive_at p0 d p1 -> exists tok, directive_token d tok /\
    forall ska key c, easy key -> level_ground c ->
    turn o (mkCfg p ska key c) (ends (List.length (c_indents c)) (offset p0) ++ [mkEntry (Tok tok) (offset p1)])
      (mkCfg p1 false None (mkCxt 0 0 [] (c_started c))).
  Proof.
    intros A AP DA. pose proof (moves_ascii _ _ (apart_moves _ _ AP) A) as A0.
    destruct (dispatch_directive p0 d p1 A0 DA) as (tok & T & D). exists tok. split; [exact T|]. intros ska key c K G.
    apply (closing_step p p0 ska key c _ (fun b => mkCfg p1 false None (mkCxt 0 0 [] b)) A AP); auto.
    destruct (directive_scanned p0 d p1 A0 DA) as (k & base & tok' & dd & C & M & E & _). rewrite E. destruct k; discriminate.
  Qed.
End Marks.
