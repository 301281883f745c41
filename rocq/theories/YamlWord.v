(** Rounds of the scanner for anchors, aliases, tags and block scalars. *)
From Verif Require Export YamlRound.
From Verif Require Import StreamFacts NameFacts BlockAlone TagFacts LexFacts.
From Verif Require BasicFacts UriFacts SpecNames SpecUri SpecBlock.
From Verif Require Import SpecYaml.
From Coq Require Import Lia ZifyBool ZifyN ZifyNat.
Open Scope nat_scope.

Section Words.
  Variable o : flags.
  Hypothesis (NE : extendable o = false) (NL : lazy_mode o = false).

  Lemma dispatch_name (alias : bool) p a p' c ska key n q : all_ascii (text p) -> node_name alias p a p' -> (ska = true -> easy key) ->
    dispatch o (state_of n (mkCfg p ska key c) q) =
      (state_of n (mkCfg p' false (saved ska (snd p) c key) c)
         (q_push q (mkEntry (Tok (SpecNames.naming alias (Borrowed a))) (offset p'))), Ok tt).
  Proof.
    intros A (E & AN & AL & (x & IX & (r & ER)) & M) K. pose proof (moves_ascii _ _ M A) as A'.
    unfold state_of, scan_of. cbn [g_place g_ska g_key g_cxt].
    assert (D : dispatch o (mkMs (text p) (mkSc n SStream ska (snd p) key c) q) = fetch_anchor o (mkMs (text p) (mkSc n SStream ska (snd p) key c) q)).
    { rewrite E. destruct alias; reflexivity. }
    assert (AT : at_is (text p) 0 42 || at_is (text p) 0 38 = true /\ at_is (text p) 0 42 = alias) by (rewrite E; destruct alias; split; reflexivity).
    assert (EN : SpecNames.ends SpecNames.alphanumeric (text p')).
    { rewrite ER. intros y s X AX. injection X as <- <-. unfold SpecNames.after_name, SpecNames.alphanumeric in *. cbn [In] in IX. lia. }
    assert (SA : scan_anchor o (text p) stats0 alias = Ok (SpecNames.naming alias (Borrowed a), text p', supd stats0 (S (List.length a)) 0 (S (List.length a)))).
    { rewrite E at 1. rewrite scan_anchor_run by (auto using valid_text). destruct a as [|y a]; [congruence|]. rewrite ER.
      assert (anchor_follow x = true) as -> by (apply follow_iff, IX). reflexivity. }
    rewrite D. unfold fetch_anchor. steps. destruct AT as [-> ->].
    erewrite run_bind by (unfold mlift; rewrite SA; reflexivity). cbv beta iota.
    erewrite run_bind by (apply save_easy, K). erewrite run_bind by reflexivity. cbn [m_buf m_sc m_q].
    erewrite run_bind by (eapply adv_to; eassumption).
    assert (RD : reads (text p) stats0 (text p') (supd stats0 (S (List.length a)) 0 (S (List.length a)))).
    { pose proof SA as SB. rewrite E in SB.
      assert (PB : plain_byte (SpecNames.indicator alias)) by (destruct alias; unfold plain_byte; repeat split; discriminate).
      pose proof (leaf_inv _ _ _ _ _ (scan_anchor_leaf o _ _ stats0 alias PB) SB) as [RD _]. rewrite E. exact RD. }
    pose proof (reads_det _ _ _ _ _ M (reads_shift0 (snd p) _ _ _ RD)) as ES.
    unfold add_st. erewrite run_bind by reflexivity. unfold set_st, set_ska. cbn [m_buf m_sc m_q sc_offset sc_state sc_ska sc_st sc_key sc_cxt].
    unfold text, offset in *. rewrite ES. reflexivity.
  Qed.

  (** A tag with the handle [!]. *)
  Lemma local_tag t s rest st : SpecUri.spelled false t s -> SpecUri.uri_stop false rest -> (forall r, rest <> 60%N :: r) ->
    (forall a r, t ++ rest = a ++ 33%N :: r -> ~ Forall SpecNames.alphanumeric a) -> all_ascii (t ++ rest) ->
    exists ch cs st', scan_node_tag o (33%N :: t ++ rest) st = Ok (TTag ch cs, S (List.length t), st') /\
      cow_str ch = bytes "!" /\ cow_str cs = s.
  Proof.
    intros SP US NV NH A. set (base := 33%N :: t ++ rest).
    assert (HT : head_ok (t ++ rest)) by (eapply UriFacts.spelled_head; eauto).
    assert (HR : head_ok rest) by (destruct US as (x & r & -> & X & _); apply UriFacts.ascii_head, X).
    assert (TS : forall b, In b [32; 9; 10; 13; 60]%N -> forall r, t ++ rest = b :: r -> t = []).
    { intros b IB r E. destruct SP as [|y t s L SP|w e t s W P SP]; [reflexivity|exfalso..].
      - cbn [app] in E. injection E as -> _. unfold SpecUri.uri_literal, SpecUri.letter_or_digit in L. cbn [In] in IB, L. intuition (try lia; try discriminate).
      - destruct (Utf8Facts.encode_nonempty w) as (y & z & EW). rewrite EW in P. inversion P; subst. cbn [app] in E. injection E as E _. cbn [In] in IB. lia. }
    assert (SW : starts_with base (bytes "!<") = false).
    { destruct (starts_with base (bytes "!<")) eqn:X; [|reflexivity]. exfalso. unfold base in X.
      destruct (t ++ rest) as [|y z] eqn:EY; [discriminate|]. change (starts_with (33%N :: y :: z) (bytes "!<")) with ((y =? 60)%N && starts_with z []) in X.
      assert (y = 60%N) as -> by lia. rewrite (TS 60%N ltac:(cbn; auto 6) z eq_refl) in EY. exact (NV z EY). }
    assert (TT : forall l, exists n, take_while o is_alnum l = Ok n).
    { clear - NE. induction l as [|b l (n & IH)]; cbn [take_while]; rewrite (cache_static _ _ _ NE); cbn [bind]; [eauto|].
      destruct (is_alnum b); [rewrite IH; cbn [bind]|]; eauto. }
    destruct (TT (t ++ rest)) as (n & TW). destruct (take_while_spec _ _ _ _ TW) as (a & r & EA & LA & FA & EE).
    assert (RN : r <> []).
    { intros ->. rewrite app_nil_r in EA. destruct US as (x & z & -> & _ & UL & _). apply UL. left.
      rewrite Forall_forall in FA. apply BasicFacts.alnum_iff, FA. rewrite <- EA. apply in_or_app. right. left. reflexivity. }
    assert (X33 : at_is base (1 + n) 33 = false).
    { destruct (at_is base (1 + n) 33) eqn:X; [|reflexivity]. exfalso. unfold base, at_is in X. cbn [nth_error plus] in X. rewrite EA, <- LA, nth_error_app2, Nat.sub_diag in X by lia.
      destruct r as [|y r]; [congruence|]. cbn [nth_error] in X. assert (y = 33%N) as -> by lia. apply (NH a r EA).
      eapply Forall_impl; [|exact FA]. intros b. apply alnum_iff. }
    assert (LEN : Nat.ltb (1 + n) (List.length base) = true).
    { unfold base. cbn [List.length]. rewrite EA, app_length, LA. destruct r; [congruence|]. cbn [List.length]. lia. }
    assert (SK : skip (E := scan_error) base 1 = Ok (t ++ rest)) by (apply (skip_app [33%N] (t ++ rest)), HT).
    unfold scan_node_tag. rewrite (cache_static _ _ _ NE). cbn [bind]. rewrite SW.
    assert (SL : slice (E := scan_error) base 0 1 = Ok (bytes "!")).
    { unfold slice. cbn [Nat.leb]. change (is_boundary base 0) with true. assert (is_boundary base 1 = true) as -> by (apply (boundary_app [33%N] (t ++ rest)), HT). reflexivity. }
    assert (SH : scan_tag_handle o base st = Ok (if Nat.eqb n 0 && is_ws_at base 1 then Some (HPrimary (bytes "!"), 1) else None, if Nat.eqb n 0 && is_ws_at base 1 then supd st 1 0 1 else st)).
    { unfold scan_tag_handle. rewrite (cache_static _ _ _ NE). cbn [bind]. unfold base at 1. cbn iota. change (33 =? 33)%N with true. cbn iota. fold base. rewrite SK. cbn [bind]. rewrite TW. cbn [bind].
      cbv zeta. rewrite cache_at_skip. change (cache_at o (skipn (1 + n) base) 0 1) with (cache o (skipn (1 + n) base) 1). rewrite (cache_static _ _ _ NE). cbn [bind]. rewrite X33.
      destruct (Nat.eqb_spec n 0) as [->|N0]; cbn [andb plus] in LEN |- *; [destruct (is_ws_at base 1)|].
      - rewrite SL. reflexivity.
      - rewrite LEN. reflexivity.
      - rewrite LEN. reflexivity. }
    rewrite SH. cbn [bind]. destruct (Nat.eqb n 0 && is_ws_at base 1) eqn:WS.
    - assert (t = []) as ->.
      { apply andb_true_iff in WS as [_ WS]. unfold is_ws_at, base in WS. cbn [skipn] in WS.
        destruct (t ++ rest) as [|y z] eqn:EY; [unfold is_ws, is_blank, is_break, at_is in WS; cbn in WS; discriminate|].
        apply (TS y) with (r := z); [|reflexivity].
        pose proof (Forall_inv A) as YA. cbn beta in YA. unfold is_ws, is_blank, is_break, break_amt, at_is in WS. cbn [nth_error] in WS. cbn [In].
        destruct (y =? 32)%N eqn:Q1; [left; lia|]. destruct (y =? 9)%N eqn:Q2; [right; left; lia|]. destruct (y =? 10)%N eqn:Q3; [right; right; left; lia|].
        destruct (y =? 13)%N eqn:Q4; [right; right; right; left; lia|]. cbn [orb] in WS.
        replace (y =? 194)%N with false in WS by lia. replace (y =? 226)%N with false in WS by lia. discriminate. }
      inversion SP as [E0 E1| |w e t' s' W P SP' E0 E1]; [|exfalso].
      2:{ apply app_eq_nil in E0 as [-> _]. destruct (Utf8Facts.encode_nonempty w) as (y & z & EW). rewrite EW in P. inversion P. }
      exists (Borrowed (bytes "!")), (Borrowed []), (supd st 1 0 1). cbn [bind app] in *. rewrite SK. cbn [bind]. split; [|split; reflexivity].
      unfold consumed, base. cbn [List.length]. do 3 f_equal. lia.
    - rewrite (cache_static _ _ _ NE). cbn [bind]. rewrite SL. cbn [bind].
      assert (AD : adv base st 1 = Ok (t ++ rest, supd st 1 0 1)) by (apply (adv_app [33%N] (t ++ rest)), HT).
      rewrite AD. cbn [bind]. rewrite (UriFacts.scan_tag_uri_complete o false t s rest _ SP US). cbn [bind].
      rewrite skip_app by exact HR. cbn [bind].
      assert (CO : consumed base rest = S (List.length t)) by (unfold consumed, base; cbn [List.length]; rewrite app_length; lia).
      rewrite CO. unfold assemble_tag. destruct (str_eqb t s) eqn:SE.
      + apply BaseFacts.str_eqb_eq in SE. eexists (Borrowed (bytes "!")), (Borrowed t), _. split; [reflexivity|]. split; [reflexivity|exact SE].
      + eexists (Owned (bytes "!")), (Owned s), _. split; [reflexivity|]. split; reflexivity.
  Qed.

  Lemma dispatch_tag (handles : str -> Prop) p h s p' c : all_ascii (text p) -> node_tag handles p h s p' ->
    exists ch cs, cow_str ch = h /\ cow_str cs = s /\ forall ska key n q, (ska = true -> easy key) ->
    dispatch o (state_of n (mkCfg p ska key c) q) =
      (state_of n (mkCfg p' false (saved ska (snd p) c key) c)
         (q_push q (mkEntry (Tok (TTag ch cs)) (offset p'))), Ok tt).
  Proof.
    intros A (t & E & SP & US & FH & _ & M). pose proof (moves_ascii _ _ M A) as A'.
    assert (X : exists ch cs d, scan_node_tag o (text p) stats0 = Ok (TTag ch cs, List.length (h ++ t), d) /\ cow_str ch = h /\ cow_str cs = s /\
      starts_with (text p) (bytes "!<") = false /\ exists r, text p = 33%N :: r).
    { destruct FH as [FH|(-> & NV & NH)].
      - destruct (BasicFacts.node_tag_decodes o h t s (text p') stats0 FH SP US) as (tok & ST & ch & cs & -> & EH & ES).
        exists ch, cs, (supd stats0 (List.length (h ++ t)) 0 (List.length (h ++ t))). rewrite E. split; [exact ST|]. split; [exact EH|]. split; [exact ES|].
        destruct FH as (name & -> & FN). split; [|eexists; reflexivity]. destruct name as [|b name]; [reflexivity|].
        change (starts_with ((33%N :: (b :: name) ++ [33%N]) ++ t ++ text p') (bytes "!<")) with ((b =? 60)%N && starts_with ((name ++ [33%N]) ++ t ++ text p') []).
        apply Forall_inv in FN. unfold SpecUri.letter_or_digit in FN. replace (b =? 60)%N with false by lia. reflexivity.
      - assert (AS : all_ascii (t ++ text p')) by (rewrite E in A; exact (Forall_inv_tail A)).
        destruct (local_tag t s (text p') stats0 SP US (fun r X => NV (ex_intro _ r X)) NH AS) as (ch & cs & d & ST & EH & ES).
        exists ch, cs, d. rewrite E. split; [exact ST|]. split; [exact EH|]. split; [exact ES|]. split; [|eexists; reflexivity].
        change (bytes "!" ++ t ++ text p') with (33%N :: t ++ text p').
        destruct (starts_with (33%N :: t ++ text p') (bytes "!<")) eqn:X; [|reflexivity]. exfalso.
        destruct SP as [|y t s L SP|w e t s W P SP]; cbn [app] in X.
        + destruct (text p') as [|y z] eqn:EY; [discriminate|]. change (starts_with (33%N :: y :: z) (bytes "!<")) with ((y =? 60)%N && starts_with z []) in X.
          apply NV. exists z. rewrite EY. f_equal. lia.
        + change (starts_with (33%N :: y :: t ++ text p') (bytes "!<")) with ((y =? 60)%N && starts_with (t ++ text p') []) in X.
          unfold SpecUri.uri_literal, SpecUri.letter_or_digit in L. cbn [In] in L. assert (y = 60%N) as -> by lia. intuition (try lia; try discriminate).
        + destruct (Utf8Facts.encode_nonempty w) as (y & z & EW). rewrite EW in P. inversion P; subst. cbn [app] in X. discriminate. }
    destruct X as (ch & cs & d & ST & EH & ES & SW & (r0 & E0)). exists ch, cs. split; [exact EH|]. split; [exact ES|].
    intros ska key n q K. unfold state_of, scan_of. cbn [g_place g_ska g_key g_cxt].
    assert (D : dispatch o (mkMs (text p) (mkSc n SStream ska (snd p) key c) q) = fetch_tag o (mkMs (text p) (mkSc n SStream ska (snd p) key c) q)).
    { rewrite E0. reflexivity. }
    assert (HR : head_ok (text p')) by (destruct US as (x & r & -> & X & _); apply UriFacts.ascii_head, X).
    assert (SK : skip (E := scan_error) (text p) (List.length (h ++ t)) = Ok (text p')) by (rewrite E, app_assoc; apply skip_app, HR).
    rewrite D. unfold fetch_tag. steps. assert (at_is (text p) 0 33 = true) as -> by (rewrite E0; reflexivity). cbn [negb].
    erewrite run_bind by (unfold mlift; rewrite ST; reflexivity). cbv beta iota.
    erewrite run_bind by (unfold mlift; rewrite SK; reflexivity).
    erewrite run_bind by (apply save_easy, K). erewrite run_bind by reflexivity. cbn [m_buf m_sc m_q].
    erewrite run_bind by (eapply adv_to; eassumption).
    assert (RD : reads (text p) stats0 (text p') d).
    { pose proof (leaf_inv _ _ _ _ _ (scan_node_tag_leaf o _ stats0) ST) as (_ & _ & _ & RD). specialize (RD SW).
      replace (skipn (List.length (h ++ t)) (text p)) with (text p') in RD; [exact RD|]. rewrite E, app_assoc, skipn_app, skipn_all, Nat.sub_diag. reflexivity. }
    pose proof (reads_det _ _ _ _ _ M (reads_shift0 (snd p) _ _ _ RD)) as EQ.
    unfold add_st. erewrite run_bind by reflexivity. unfold set_st, set_ska. cbn [m_buf m_sc m_q sc_offset sc_state sc_ska sc_st sc_key sc_cxt].
    unfold text, offset in *. rewrite EQ. reflexivity.
  Qed.

  Lemma dispatch_block fold p b v p' c : all_ascii (text p) -> is_block c = true ->
    text p = SpecBlock.block_indicator fold :: b -> (forall x, b <> 35%N :: x) ->
    SpecBlock.block fold (indent_usize (cur_indent c)) b v (text p') -> (exists x, In x v /\ x <> 10%N) ->
    SpecBlock.line_feeds_only (text p) -> (text p' = [] -> forall y, ~ SpecBlock.last_line b y) -> moves p p' ->
    exists w, cow_str w = v /\ forall ska key n q, easy key ->
    dispatch o (state_of n (mkCfg p ska key c) q) =
      (state_of n (mkCfg p' true None c)
         (q_push q (mkEntry (Tok (TScalar w (if fold then Folded else Literal))) (offset p'))), Ok tt).
  Proof.
    intros A BL E NH BK NC LF NLL M.
    destruct (block_complete o (text p) (snd p) _ fold b v (text p') NE A E BK NC NH) as (w & st' & SB & _ & EQ & _ & RD & _).
    exists w. split.
    { destruct (EQ LF) as [X|(X & _ & Y)]; [exact X|]. destruct (NLL X _ Y). }
    intros ska key n q K. unfold state_of, scan_of. cbn [g_place g_ska g_key g_cxt].
    assert (D : dispatch o (mkMs (text p) (mkSc n SStream ska (snd p) key c) q) = fetch_block_scalar o fold (mkMs (text p) (mkSc n SStream ska (snd p) key c) q)).
    { rewrite E. unfold dispatch. steps. rewrite BL. destruct fold; reflexivity. }
    rewrite D. unfold fetch_block_scalar. steps. erewrite run_bind by (apply remove_easy, K). steps.
    unfold scan_block_scalar. rewrite NL, SB. cbn [bind]. steps.
    erewrite run_bind by (eapply adv_to; eassumption). erewrite run_bind by reflexivity.
    pose proof (reads_det _ _ _ _ _ M RD) as ES. unfold set_st, set_ska. cbn [m_buf m_sc m_q sc_offset sc_state sc_ska sc_st sc_key sc_cxt].
    unfold text, offset in *. rewrite <- ES. reflexivity.
  Qed.
End Words.
