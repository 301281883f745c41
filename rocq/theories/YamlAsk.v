(** Rounds of the scanner for the indicators of explicit keys, and the age of the saved key. *)
From Verif Require Export YamlRound.
From Verif Require Import StreamFacts ScanFacts History.
From Verif Require Import SpecYaml.
From Coq Require Import Lia ZifyBool ZifyN ZifyNat.
Open Scope nat_scope.

Section Ask.
  Variable o : flags.
  Hypothesis (NE : extendable o = false) (NL : lazy_mode o = false).

  Lemma rolls_any st map b sc q :
    (if is_block (sc_cxt sc) then roll_indent (sread st) (slines st) (scol st) map else mret tt) (mkMs b sc q) =
      (mkMs b (set_cxt (fst (roll (sc_cxt sc) st map)) sc) (pushes (snd (roll (sc_cxt sc) st map)) q), Ok tt).
  Proof.
    destruct (is_block (sc_cxt sc)) eqn:B; [apply rolls; assumption|]. unfold roll. rewrite B. destruct sc; reflexivity.
  Qed.

  Lemma dispatch_question p p1 n ska key c q : all_ascii (text p) -> char 63 p p1 -> is_flow c = true \/ loose p1 ->
    easy key -> is_flow c = true \/ ska = true ->
    dispatch o (state_of n (mkCfg p ska key c) q) =
      (state_of n (mkCfg p1 (is_block c) None (fst (roll c (snd p) true)))
         (pushes (snd (roll c (snd p) true) ++ [mkEntry (Tok TKey) (offset p1)]) q), Ok tt).
  Proof.
    intros A CH LO K SK. unfold state_of, scan_of. cbn [g_place g_ska g_key g_cxt].
    assert (D : dispatch o (mkMs (text p) (mkSc n SStream ska (snd p) key c) q) =
      fetch_explicit_key (mkMs (text p) (mkSc n SStream ska (snd p) key c) q)).
    { destruct CH as [E _]. rewrite E. unfold dispatch. steps. cbv zeta.
      assert (H : forall x, x <> 63%N -> at_is (63%N :: text p1) 0 x = false).
      { intros x X. unfold at_is. cbn [nth_error]. lia. }
      rewrite (H 37%N), (H 123%N), (H 91%N), (H 125%N), (H 93%N), (H 44%N), (H 45%N) by discriminate.
      change (starts_with (63%N :: text p1) (bytes "...")) with false. change (starts_with (63%N :: text p1) (bytes "---")) with false. cbn [orb andb].
      assert (is_flow c || is_wsZ_at (63%N :: text p1) 1 = true) as ->.
      { unfold is_wsZ_at. cbn [skipn]. destruct LO as [-> |LO]; [reflexivity|]. rewrite loose_wsZ by assumption. apply orb_true_r. }
      reflexivity. }
    rewrite D. unfold fetch_explicit_key. steps. cbv zeta.
    erewrite run_bind.
    2:{ rewrite <- (rolls_any (snd p) true (text p) (mkSc n SStream ska (snd p) key c) q). cbn [sc_cxt sc_ska]. destruct (is_block c) eqn:B; [|reflexivity].
        assert (ska = true) as -> by (destruct SK as [F|F]; [unfold is_block in B; rewrite F in B; discriminate|exact F]). reflexivity. }
    cbn [sc_cxt]. unfold set_cxt. cbn [sc_offset sc_state sc_ska sc_st sc_key sc_cxt].
    erewrite run_bind by (apply remove_easy, K). steps.
    erewrite run_bind by (eapply char_adv; [|exact A|exact CH|reflexivity]; lia).
    unfold enqueue_here. steps. rewrite pushes_app. reflexivity.
  Qed.

  Lemma dispatch_colon p p1 n ska key c q : all_ascii (text p) -> char 58 p p1 -> is_flow c = true \/ loose p1 ->
    key_possible_now key = false -> is_flow c = true \/ ska = true ->
    dispatch o (state_of n (mkCfg p ska key c) q) =
      (state_of n (mkCfg p1 (is_block c) None (fst (roll c (snd p) true)))
         (pushes (snd (roll c (snd p) true) ++ [mkEntry (Tok TValue) (offset p1)]) q), Ok tt).
  Proof.
    intros A CH LO K SK. unfold state_of, scan_of. cbn [g_place g_ska g_key g_cxt].
    assert (D : dispatch o (mkMs (text p) (mkSc n SStream ska (snd p) key c) q) =
      fetch_value (mkMs (text p) (mkSc n SStream ska (snd p) key c) q)).
    { destruct CH as [E _]. rewrite E. unfold dispatch. steps. cbv zeta.
      assert (H : forall x, x <> 58%N -> at_is (58%N :: text p1) 0 x = false).
      { intros x X. unfold at_is. cbn [nth_error]. lia. }
      rewrite (H 37%N), (H 123%N), (H 91%N), (H 125%N), (H 93%N), (H 44%N), (H 45%N), (H 63%N) by discriminate.
      change (starts_with (58%N :: text p1) (bytes "...")) with false. change (starts_with (58%N :: text p1) (bytes "---")) with false. cbn [orb andb].
      assert (is_wsZ_at (58%N :: text p1) 1 || is_flow c = true) as ->.
      { unfold is_wsZ_at. cbn [skipn]. destruct LO as [-> |LO]; [apply orb_true_r|]. rewrite loose_wsZ by exact LO. reflexivity. }
      reflexivity. }
    rewrite D. unfold fetch_value. erewrite run_bind by reflexivity. cbn [m_sc]. erewrite run_bind by reflexivity. cbv zeta.
    cbn [sc_key m_buf m_sc m_q sc_cxt sc_st sc_ska].
    set (other := mbind _ (fun _ => upd (set_ska (is_block c)))).
    assert (OE : match key with Some k => if kp_allowed (k_possible k) then
        mbind (roll_indent (sread (k_stats k)) (slines (k_stats k)) (scol (k_stats k)) true) (fun _ => mbind (enqueue (Tok TKey) (sread (k_stats k))) (fun _ => upd (set_ska false))) else other | None => other end = other).
    { destruct key as [k|]; [|reflexivity]. cbn [key_possible_now] in K. rewrite K. reflexivity. }
    rewrite OE. subst other.
    erewrite run_bind.
    2:{ erewrite run_bind.
        2:{ rewrite <- (rolls_any (snd p) true (text p) (mkSc n SStream ska (snd p) None c) q). cbn [sc_cxt]. destruct (is_block c) eqn:B; [|reflexivity].
            assert (ska = true) as -> by (destruct SK as [F|F]; [unfold is_block in B; rewrite F in B; discriminate|exact F]). reflexivity. }
        reflexivity. }
    cbn [m_buf m_sc m_q sc_cxt]. unfold set_cxt, set_ska. cbn [sc_offset sc_state sc_ska sc_st sc_key sc_cxt].
    erewrite run_bind by (eapply char_adv; [|exact A|exact CH|reflexivity]; lia).
    unfold enqueue_here. steps. rewrite pushes_app. reflexivity.
  Qed.

  (** A saved key that may still become a key was not saved later. *)
  Definition old (p : place) (key : option key_save) : Prop :=
    match key with Some k => kp_allowed (k_possible k) = true -> slines (k_stats k) <= line p | None => True end.
  Definition aged (sc : scanner) : Prop :=
    match sc_key sc with Some k => kp_allowed (k_possible k) = true -> slines (k_stats k) <= slines (sc_st sc) | None => True end.
  Lemma quiet_aged b sc es b' sc' : quiet b sc es b' sc' -> aged sc -> aged sc'.
  Proof.
    induction 1 as [b sc|b sc b1 st1 ska es b' sc' SK R Q IH|b sc k es b' sc' K Q IH|b sc v es b' sc' Q IH|b sc n c es b' sc' C CA SB Q IH]; intros AG; auto.
    - apply IH. unfold aged in *. cbn. destruct (sc_key sc) as [k|]; [|exact Logic.I]. intros X. specialize (AG X). pose proof (reads_lines _ _ _ _ R). lia.
    - apply IH. unfold aged. cbn. destruct k as [k|]; [|exact Logic.I]. cbn in K. congruence.
  Qed.
  Lemma next_aged sc st' key off s ska c : aged sc -> slines (sc_st sc) <= slines st' -> key_next sc st' key -> aged (mkSc off s ska st' key c).
  Proof.
    intros AG LE [E|[K|[(r & E)|(r & E)]]]; unfold aged in *; cbn [sc_key sc_st].
    - rewrite E. destruct (sc_key sc) as [k|]; [|exact Logic.I]. intros X. specialize (AG X). lia.
    - destruct key as [k|]; [|exact Logic.I]. cbn in K. congruence.
    - rewrite E. cbn. auto.
    - rewrite E. cbn. auto.
  Qed.
  Lemma act_aged b sc es b' sc' : act o b sc es b' sc' -> aged sc -> aged sc' /\ exists n, b' = skipn n b.
  Proof.
    intros H AG. destruct H.
    - split; [|eauto]. destruct H1 as (_ & _ & _ & _ & _ & L). eapply next_aged; eauto using kept_next.
    - split; [|exists 1; subst; reflexivity]. eapply next_aged; [exact AG|cbn; lia|apply behind_next; assumption].
    - split; [exact Logic.I|exists 1; subst; reflexivity].
    - split; [exact Logic.I|exists 1; subst; reflexivity].
    - split; [exact Logic.I|exists 1; subst; reflexivity].
    - split; [exact Logic.I|exists 1; subst; reflexivity].
    - split; [exact Logic.I|exists 1; subst; reflexivity].
  Qed.
  Lemma round_aged b sc es b' sc' : round o b sc es b' sc' -> aged sc -> aged sc' /\ exists n, b' = skipn n b.
  Proof.
    destruct 1 as [ST|es sc1 ST Q KN BE|e0 e1 es b1 sc0 sc2 sc1 fs b' sc' ST Q0 SB LV Q1 DS Q F A]; intros AG.
    - split; [exact AG|exists 0; reflexivity].
    - split; [exact (quiet_aged _ _ _ _ _ Q AG)|]. destruct (reads_suffix _ _ _ _ (quiet_reads _ _ _ _ _ Q)) as (n & E & _). exists n. exact E.
    - destruct (act_aged _ _ _ _ _ A) as [A1 (m & E1)]; [eauto using quiet_aged|]. split; [exact A1|].
      destruct (reads_suffix _ _ _ _ (quiet_reads _ _ _ _ _ Q0)) as (n & E & _). subst. exists (n + m). rewrite skipn_skipn. reflexivity.
  Qed.
  Lemma turn_old g es g' : turn o g es g' -> all_ascii (text (g_place g)) -> old (g_place g) (g_key g) ->
    all_ascii (text (g_place g')) /\ old (g_place g') (g_key g').
  Proof.
    intros T A OL. destruct (wp_round o (text (g_place g)) (scan_of 0 g) (valid_text _ A) ltac:(discriminate)) as (fs & b' & sc' & r & E & H).
    specialize (E q_new). pose proof (T 0 q_new) as T0. unfold state_of in T0 at 1. rewrite T0 in E. injection E as E1 E2 _ E3. subst b' sc' r. cbn in H.
    destruct (round_aged _ _ _ _ _ H OL) as [A1 (n & E)]. split; [|exact A1]. unfold text. unfold text in E. rewrite E. apply ascii_skipn, A.
  Qed.
  Lemma run_old g es g' : run o g es g' -> all_ascii (text (g_place g)) -> old (g_place g) (g_key g) -> old (g_place g') (g_key g').
  Proof. induction 1 as [g|g es g1 fs g2 T R IH]; intros A OL; [exact OL|]. destruct (turn_old _ _ _ T A OL). auto. Qed.
  Lemma old_expired p p0 key : old p key -> line p < line p0 -> key_possible_now (expired (snd p0) key) = false.
  Proof.
    intros OL LL. destruct key as [k|]; [|reflexivity]. cbn [old expired] in *. destruct (kp_allowed (k_possible k)) eqn:K; [|exact K].
    specialize (OL eq_refl). unfold line in *. destruct (Nat.ltb_spec (slines (k_stats k)) (slines (snd p0))); [reflexivity|lia].
  Qed.
End Ask.
