(** Cut texts: quoted, plain and block scalars. *)
From Verif Require Import CutFacts CutLeaf QuotedFacts FlowFacts Contract.
From Coq Require Import Lia ZifyBool ZifyN ZifyNat.
Open Scope nat_scope.

Lemma width_fits c (r : str) : valid (c :: r) -> width_byte c <= List.length (c :: r).
Proof.
  unfold valid, valid_utf8. cbn [List.length valid_fuel]. unfold width_byte, utf8_char.
  destruct (c <? 128)%N eqn:A; [lia|]. unfold rng.
  destruct ((192 <=? c)%N && (c <=? 223)%N) eqn:B.
  { destruct r as [|x r]; [|cbn; lia]. destruct ((194 <=? c)%N && (c <=? 223)%N); [discriminate|].
    replace ((224 <=? c)%N && (c <=? 239)%N) with false by lia.
    replace ((240 <=? c)%N && (c <=? 244)%N) with false by lia. discriminate. }
  replace ((194 <=? c)%N && (c <=? 223)%N) with false by lia.
  destruct ((224 <=? c)%N && (c <=? 239)%N) eqn:D.
  { destruct r as [|x [|y r]]; [discriminate|discriminate|cbn; lia]. }
  destruct ((240 <=? c)%N && (c <=? 247)%N) eqn:F; [|lia].
  destruct ((240 <=? c)%N && (c <=? 244)%N); [|discriminate].
  destruct r as [|x [|y [|z r]]]; [discriminate|discriminate|discriminate|cbn; lia].
Qed.
Lemma width_at_fits (s : str) i : valid s -> i <= List.length s -> width_at s i + i <= List.length s.
Proof.
  intros V L. unfold width_at. destruct (nth_error s i) as [c|] eqn:N; [|lia].
  destruct (is_boundary s i) eqn:B.
  - pose proof (valid_skipn s i V B) as W. pose proof (nth_error_split _ _ N) as (l1 & l2 & -> & <-).
    rewrite skipn_app, skipn_all, Nat.sub_diag in W. cbn [skipn app] in W.
    pose proof (width_fits _ _ W). rewrite app_length. lia.
  - destruct i; [discriminate B|]. cbn [is_boundary] in B. rewrite N in B.
    assert (width_byte c = 0) as ->; [|lia]. unfold is_cont in B. unfold width_byte, rng.
    replace (c <? 128)%N with false by lia. replace ((192 <=? c)%N && (c <=? 223)%N) with false by lia.
    replace ((224 <=? c)%N && (c <=? 239)%N) with false by lia.
    replace ((240 <=? c)%N && (c <=? 247)%N) with false by lia. reflexivity.
Qed.

Section Scalar.
  Variables (t : str) (o o' : flags).
  Hypothesis E : extendable o = true.
  Notation near := (near t).
  Notation grown := (grown t).

  Definition fgrow (s : fstate) : fstate := mkF (f_buf s ++ t) (f_st s) (f_scr s) (f_bor s).
  Definition fr (K L : nat) (s s' : fstate) : Prop := s' = fgrow s /\ near K L (f_buf s) (f_st s).

  Lemma f_adv_sim K L s n : near K L (f_buf s) (f_st s) -> n <= List.length (f_buf s) ->
    sim (fr K L) (f_adv s n) (f_adv (fgrow s) n).
  Proof.
    intros H Ln. unfold f_adv. cbn [f_buf f_st fgrow].
    eapply sim_bind; [apply (adv_sim t K L); eassumption|]. intros [b st] p' ((-> & G) & _).
    apply sim_ok. split; [reflexivity|exact G].
  Qed.
  Lemma f_adv_line_sim K L s : near K L (f_buf s) (f_st s) -> f_buf s <> [] ->
    simk (fun s => f_buf s = []) (fr K L) (f_adv_line s) (f_adv_line (fgrow s)).
  Proof.
    intros H Ln. unfold f_adv_line. cbn [f_buf f_st fgrow].
    eapply simk_bindg; [apply (adv_line_sim t K L); eassumption| |].
    - intros [b st] z E0. left. exact E0.
    - intros [b st] p' (-> & G). apply simk_ok. split; [reflexivity|exact G].
  Qed.
  Lemma push_grow s w : f_push (fgrow s) w = fgrow (f_push s w). Proof. reflexivity. Qed.
  Lemma push_head_grow s : f_buf s <> [] -> f_push_head (fgrow s) = fgrow (f_push_head s).
  Proof.
    intros N. unfold f_push_head. cbn [f_bor fgrow]. destruct (f_bor s); [reflexivity|].
    cbn [f_buf]. destruct s as [b st scr bor]. cbn in *. destruct b; [congruence|reflexivity].
  Qed.
  Lemma push_head_buf s : f_buf (f_push_head s) = f_buf s. Proof. unfold f_push_head. destruct (f_bor s); reflexivity. Qed.
  Lemma push_head_st s : f_st (f_push_head s) = f_st s. Proof. unfold f_push_head. destruct (f_bor s); reflexivity. Qed.

  Section Base.
    Variable base : str.
    Hypothesis CB : cut t base.
    Notation L := (List.length base).

    Lemma no_borrow_sim K s : near K L (f_buf s) (f_st s) ->
      sim (fun r r' => r' = fgrow r /\ f_buf r = f_buf s /\ f_st r = f_st s)
        (f_no_borrow base s) (f_no_borrow (base ++ t) (fgrow s)).
    Proof.
      intros H. unfold f_no_borrow. cbn [f_bor fgrow]. destruct (f_bor s); [|apply sim_ok; auto].
      cbn [f_buf fgrow]. rewrite consumed_grow.
      eapply sim_bind; [apply slice_sim; [exact CB|unfold consumed; lia]|]. intros x ? <-. apply sim_ok. auto.
    Qed.
    Lemma p_no_borrow_sim K s : near K L (f_buf s) (f_st s) ->
      sim (fun r r' => r' = fgrow r /\ f_buf r = f_buf s /\ f_st r = f_st s)
        (p_no_borrow base s) (p_no_borrow (base ++ t) (fgrow s)).
    Proof.
      intros H. unfold p_no_borrow. cbn [f_bor fgrow]. destruct (f_bor s); [|apply sim_ok; auto].
      cbn [f_buf fgrow]. rewrite consumed_grow.
      eapply sim_bind; [apply slice_sim; [exact CB|unfold consumed; lia]|]. intros x ? <-. apply sim_ok. auto.
    Qed.

    (** ** Quoted scalars *)
    Lemma flow_word_sim K single s esc : near K L (f_buf s) (f_st s) ->
      simk (fun p => f_buf (fst (fst p)) = [] /\ snd p = false)
        (fun p p' => exists s1 e1 c1, p = (s1, e1, c1) /\ p' = (fgrow s1, e1, c1) /\
           near K L (f_buf s1) (f_st s1) /\ f_buf s1 <> [])
        (flow_word o base single s esc) (flow_word o' (base ++ t) single (fgrow s) esc).
    Proof.
      intros H. unfold flow_word.
      apply (simk_loop _ (fun p p' : fstate * esc_state => exists s1 e1, p = (s1, e1) /\ p' = (fgrow s1, e1) /\
           near K L (f_buf s1) (f_st s1))); [|apply fuel_app|eauto 6].
      clear H s esc. intros p p' (s & esc & -> & -> & H). unfold flow_word_body. cbn [f_buf fgrow].
      destruct (f_buf s) as [|c0 r0] eqn:B0.
      { left. cbn. auto. }
      rewrite <- B0 in *. assert (f_buf s <> []) as N by (rewrite B0; discriminate). clear B0.
      pose proof (near_cut t _ _ _ _ H) as C. rewrite is_wsZ_app by assumption.
      destruct (is_wsZ (f_buf s)).
      { apply simk_ok. cbn. do 3 eexists. eauto 6. }
      eapply simk_bind; [apply cache_sim, E|]. intros [] [] L2.
      rewrite !at_is_app by lia.
      assert (is_break (skipn 1 (f_buf s ++ t)) = is_break (skipn 1 (f_buf s))) as ->
        by (rewrite break_at_app by (auto; lia); reflexivity).
      destruct (single && at_is (f_buf s) 0 39 && at_is (f_buf s) 1 39).
      { eapply simk_bind; [apply (no_borrow_sim K), H|]. intros s1 ? (-> & B1 & S1).
        rewrite push_grow. eapply simk_bind; [apply (f_adv_sim K L); cbn; rewrite ?B1, ?S1; auto|].
        intros s2 ? (-> & H2). apply simk_ok. cbn. eauto 6. }
      destruct (single && at_is (f_buf s) 0 39 || negb single && at_is (f_buf s) 0 34).
      { apply simk_ok. cbn. do 3 eexists. eauto 6. }
      destruct (negb single && at_is (f_buf s) 0 92 && is_break (skipn 1 (f_buf s))).
      { eapply simk_bind; [apply (no_borrow_sim K), H|]. intros s1 ? (-> & B1 & S1).
        eapply simk_bind; [apply (f_adv_sim K L); rewrite ?B1, ?S1; auto; lia|].
        intros s2 ? (-> & H2). apply simk_ok. cbn. eauto 6. }
      destruct (negb single && at_is (f_buf s) 0 92).
      { eapply simk_bind; [apply (no_borrow_sim K), H|]. intros s1 ? (-> & B1 & S1).
        cbn [f_buf fgrow]. rewrite B1.
        eapply simk_bind; [apply (unescape_sim t o o' E), C|]. intros [w n] ? (<- & Ln). cbn [snd] in Ln.
        rewrite push_grow. eapply simk_bind; [apply (f_adv_sim K L); cbn; rewrite ?B1, ?S1; auto|].
        intros s2 ? (-> & H2). apply simk_ok. cbn. eauto 6. }
      rewrite push_head_grow by exact N.
      eapply simk_bind; [apply (f_adv_sim K L); rewrite ?push_head_buf, ?push_head_st; auto; lia|].
      intros s2 ? (-> & H2). apply simk_ok. cbn. eauto 6.
    Qed.

    Lemma flow_ws_sim K s esc : near K L (f_buf s) (f_st s) ->
      sim (fun p p' => exists s1 e1 w l, p = (s1, e1, w, l) /\ p' = (fgrow s1, e1, w, l) /\
           near K L (f_buf s1) (f_st s1) /\ f_buf s1 <> [])
        (flow_ws o base s esc) (flow_ws o' (base ++ t) (fgrow s) esc).
    Proof.
      intros H. unfold flow_ws.
      apply (simk_loopk (fun p : fstate * esc_state * nat * nat => f_buf (fst (fst (fst p))) = []) _
           (fun p p' : fstate * esc_state * nat * nat => exists s1 e1 w l, p = (s1, e1, w, l) /\ p' = (fgrow s1, e1, w, l) /\
           near K L (f_buf s1) (f_st s1))); [| |apply fuel_app|eauto 8].
      2:{ intros [[[s0 e0] w0] l0] E0. cbn [fst] in E0. unfold flow_ws_body. rewrite E0, (cache_nil _ E). reflexivity. }
      clear H s esc. intros p p' (s & esc & w & l & -> & -> & H). unfold flow_ws_body. cbn [f_buf fgrow].
      eapply simk_bind; [apply cache_sim, E|]. intros [] [] L1.
      assert (f_buf s <> []) as N by (eapply long_ne; [|exact L1]; lia).
      pose proof (near_cut t _ _ _ _ H) as C. rewrite is_blank_app, (is_break_app t _ C N) by exact N.
      destruct (is_blank (f_buf s)).
      { rewrite push_head_grow by exact N.
        eapply simk_bind; [apply (f_adv_sim K L); rewrite ?push_head_buf, ?push_head_st; auto; lia|].
        intros s2 ? (-> & H2). apply simk_ok. cbn. eauto 8. }
      destruct (is_break (f_buf s)).
      { eapply simk_bind; [apply (no_borrow_sim K), H|]. intros s1 ? (-> & B1 & S1).
        destruct esc; (eapply simk_bindg; [apply (f_adv_line_sim K L); rewrite ?B1, ?S1; auto; lia| |]);
        try (intros s2 z E2; left; exact E2);
        intros s2 ? (-> & H2); apply simk_ok; cbn; eauto 8. }
      apply simk_ok. cbn. do 4 eexists. eauto 8.
    Qed.

    Lemma flow_join_sim K s esc w l : near K L (f_buf s) (f_st s) ->
      sim (fr K L) (flow_join base s esc w l) (flow_join (base ++ t) (fgrow s) esc w l).
    Proof.
      intros H. unfold flow_join. destruct l as [|n]; [apply sim_ok; split; auto|].
      eapply sim_bind; [apply (no_borrow_sim K), H|]. intros s1 ? (-> & B1 & S1).
      cbn [f_scr fgrow]. eapply sim_bind; [apply sim_refl|]. intros scr ? <-. cbv zeta.
      destruct n; apply sim_ok; (split; [|destruct esc; cbn; rewrite B1, S1; exact H]); destruct esc; reflexivity.
    Qed.

    Lemma flow_eager_sim st single :
      sim (fun p p' => p = p' /\ snd (fst p) <= L)
        (scan_flow_scalar_eager o base st single) (scan_flow_scalar_eager o' (base ++ t) st single).
    Proof.
      unfold scan_flow_scalar_eager. set (K := sread st + L).
      eapply sim_bind; [apply cache_sim, E|]. intros [] [] L1.
      change (mkF (base ++ t) st [] true) with (fgrow (mkF base st [] true)).
      eapply sim_bind; [apply (f_adv_sim K L); [apply near_self, CB|exact L1]|]. intros s ? (-> & H).
      eapply (sim_bind (fun s1 s1' => fr K L s1 s1' /\ f_buf s1 <> [])).
      { apply (sim_loop (fr K L)); [|apply fuel_app|split; auto].
        clear H s. intros s ? (-> & H). unfold flow_body. cbn [f_buf f_st fgrow].
        eapply sim_bind; [apply cache_sim, E|]. intros [] [] L4.
        assert (f_buf s <> []) as N by (eapply long_ne; [|exact L4]; lia).
        pose proof (near_cut t _ _ _ _ H) as C. rewrite doc_app, is_empty_app by (auto; lia).
        destruct (is_doc_indicator (f_buf s) (scol (f_st s))); [apply sim_err|].
        destruct (is_empty (f_buf s)); [apply sim_err|].
        eapply sim_bind; [apply cache_sim, E|]. intros [] [] _.
        eapply simk_bindk; [apply (flow_word_sim K), H| |].
        - intros [[s1 e1] c1] (B1 & F1). cbn [fst snd] in B1, F1. subst c1.
          unfold flow_ws. rewrite B1. cbn [fuel_of List.length loop]. unfold flow_ws_body. rewrite B1, (cache_nil _ E). reflexivity.
        - intros p p' (s1 & e1 & c1 & -> & -> & H1 & N1). destruct c1.
          + apply sim_ok. cbn. split; [split; auto|exact N1].
          + eapply sim_bind; [apply (flow_ws_sim K), H1|]. intros p p' (s2 & e2 & w & l & -> & -> & H2 & N2).
            eapply sim_bind; [apply (flow_join_sim K), H2|]. intros s3 s3' FR. apply sim_ok. exact FR. }
      intros s1 ? ((-> & H1) & N1). cbn [f_bor f_buf f_scr fgrow].
      pose proof (near_cut t _ _ _ _ H1) as C1.
      eapply (sim_bind eq).
      { destruct (f_bor s1).
        - rewrite consumed_grow. eapply sim_bind; [apply slice_sim; [exact CB|unfold consumed; lia]|].
          intros x ? <-. apply sim_ok. reflexivity.
        - eapply sim_bind; [apply sim_refl|]. intros x ? <-. apply sim_ok. reflexivity. }
      intros x ? <-.
      eapply sim_bind; [apply cache_sim, E|]. intros [] [] L3.
      eapply sim_bind; [apply (f_adv_sim K L); [exact H1|exact L3]|]. intros s2 ? (-> & H2).
      apply sim_ok. cbn [f_buf f_st fgrow]. rewrite consumed_grow. cbn. unfold consumed. split; [reflexivity|lia].
    Qed.

    (** ** Plain scalars *)
    Lemma plain_word_sim K flow s : near K L (f_buf s) (f_st s) ->
      simk (fun s => f_buf s = [])
        (fun s1 s1' => fr K L s1 s1' /\ f_buf s1 <> [])
        (plain_word o flow s) (plain_word o' flow (fgrow s)).
    Proof.
      intros H. unfold plain_word. apply (simk_loop _ (fr K L)); [|apply fuel_app|split; auto].
      clear H s. intros s ? (-> & H). unfold plain_word_body. cbn [f_buf fgrow].
      destruct (f_buf s) as [|c0 r0] eqn:B0.
      { left. cbn. auto. }
      rewrite <- B0 in *. assert (f_buf s <> []) as N by (rewrite B0; discriminate). clear B0.
      pose proof (near_cut t _ _ _ _ H) as C. rewrite is_wsZ_app by assumption.
      destruct (is_wsZ (f_buf s)).
      { apply simk_ok. cbn. split; [split; auto|exact N]. }
      eapply simk_bind; [apply cache_sim, E|]. intros [] [] L2.
      rewrite plain_end_app by assumption. destruct (plain_end flow (f_buf s)).
      { apply simk_ok. cbn. split; [split; auto|exact N]. }
      rewrite push_head_grow by exact N.
      eapply simk_bind; [apply (f_adv_sim K L); rewrite ?push_head_buf, ?push_head_st; auto; lia|].
      intros s2 ? FR. apply simk_ok. exact FR.
    Qed.

    Lemma plain_ws_sim K s : near K L (f_buf s) (f_st s) ->
      sim (fun p p' => exists s1 w l, p = (s1, w, l) /\ p' = (fgrow s1, w, l) /\
           near K L (f_buf s1) (f_st s1))
        (plain_ws o base s) (plain_ws o' (base ++ t) (fgrow s)).
    Proof.
      intros H. unfold plain_ws.
      apply (simk_loopk (fun p : fstate * nat * nat => f_buf (fst (fst p)) = []) _
           (fun p p' : fstate * nat * nat => exists s1 w l, p = (s1, w, l) /\ p' = (fgrow s1, w, l) /\
           near K L (f_buf s1) (f_st s1))); [| |apply fuel_app|eauto 8].
      2:{ intros [[s0 w0] l0] E0. cbn [fst] in E0. unfold plain_ws_body. rewrite E0, (cache_nil _ E). reflexivity. }
      clear H s. intros p p' (s & w & l & -> & -> & H). unfold plain_ws_body. cbn [f_buf fgrow].
      eapply simk_bind; [apply cache_sim, E|]. intros [] [] L1.
      assert (f_buf s <> []) as N by (eapply long_ne; [|exact L1]; lia).
      pose proof (near_cut t _ _ _ _ H) as C. rewrite is_blank_app, (is_break_app t _ C N) by exact N.
      destruct (is_blank (f_buf s)).
      { rewrite push_head_grow by exact N.
        eapply simk_bind; [apply (f_adv_sim K L); rewrite ?push_head_buf, ?push_head_st; auto; lia|].
        intros s2 ? (-> & H2). apply simk_ok. cbn. eauto 8. }
      destruct (is_break (f_buf s)).
      { eapply simk_bind; [apply (p_no_borrow_sim K), H|]. intros s1 ? (-> & B1 & S1).
        eapply simk_bindg; [apply (f_adv_line_sim K L); rewrite ?B1, ?S1; auto; lia| |].
        - intros s2 z E2; left; exact E2.
        - intros s2 ? (-> & H2). apply simk_ok. cbn. eauto 8. }
      apply simk_ok. cbn. do 3 eexists. eauto 8.
    Qed.

    Lemma plain_join_sim K s w l : near K L (f_buf s) (f_st s) ->
      sim (fun p p' => exists s1 w l, p = (s1, w, l) /\ p' = (fgrow s1, w, l) /\
           near K L (f_buf s1) (f_st s1)) (plain_join s w l) (plain_join (fgrow s) w l).
    Proof.
      intros H. unfold plain_join. destruct l as [|n]; [apply sim_ok; eauto 8|].
      cbn [f_scr fgrow]. eapply sim_bind; [apply sim_refl|]. intros scr ? <-. cbv zeta.
      destruct n; apply sim_ok; do 3 eexists; (split; [reflexivity|split; [reflexivity|exact H]]).
    Qed.

    Lemma plain_eager_sim st indent block :
      sim (fun p p' => p = p' /\ snd (fst p) <= L)
        (scan_plain_scalar_eager o base st indent block) (scan_plain_scalar_eager o' (base ++ t) st indent block).
    Proof.
      unfold scan_plain_scalar_eager. set (K := sread st + L).
      eapply sim_bind; [apply cache_sim, E|]. intros [] [] L2.
      rewrite !at_is_app, flow_ind_app by lia.
      destruct (negb block && (at_is base 0 58 || at_is base 0 63 || at_is base 0 45) && is_flow_ind_at base 1);
        [apply sim_err|].
      eapply (sim_bind (fun p p' => exists f sc out w l, p = mkP f sc out w l /\ p' = mkP (fgrow f) sc out w l /\
        near K L (f_buf f) (f_st f) /\ sread sc <= K)).
      { apply (sim_loop (fun p p' => exists f sc out w l, p = mkP f sc out w l /\ p' = mkP (fgrow f) sc out w l /\
          near K L (f_buf f) (f_st f) /\ sread sc <= K)); [|apply fuel_app|].
        2:{ do 5 eexists. split; [reflexivity|split; [reflexivity|split; [apply near_self, CB|lia]]]. }
        intros p p' (s & sc & out & w & l & -> & -> & H & SC). unfold plain_body. cbn [p_f p_outdent f_buf f_st fgrow].
        eapply sim_bind; [apply cache_sim, E|]. intros [] [] L4.
        assert (f_buf s <> []) as N by (eapply long_ne; [|exact L4]; lia).
        pose proof (near_cut t _ _ _ _ H) as C.
        rewrite doc_app, is_empty_app, at_is_app, plain_end_app by (auto; lia).
        destruct (is_empty (f_buf s) || out || is_doc_indicator (f_buf s) (scol (f_st s)) || at_is (f_buf s) 0 35
                  || plain_end (negb block) (f_buf s)).
        { apply sim_ok. cbn. do 5 eexists. eauto 6. }
        eapply simk_bindk; [apply (plain_word_sim K), H| |].
        - intros s1 B1. cbv zeta. unfold plain_ws. rewrite B1. cbn [fuel_of List.length loop]. unfold plain_ws_body.
          rewrite B1, (cache_nil _ E). reflexivity.
        - intros s1 ? ((-> & H1) & N1). cbv zeta. cbn [f_st fgrow].
          eapply sim_bind; [apply (plain_ws_sim K), H1|]. intros p p' (s2 & w2 & l2 & -> & -> & H2).
          eapply sim_bind; [apply (plain_join_sim K), H2|]. intros p p' (s3 & w3 & l3 & -> & -> & H3).
          apply sim_ok. cbn. do 5 eexists. split; [reflexivity|split; [reflexivity|split; [exact H3|]]].
          destruct H1 as (_ & _ & H1). lia. }
      intros p p' (s & sc & out & w & l & -> & -> & H & SC). cbn [p_f p_scalar p_ws p_lines f_bor f_scr fgrow].
      eapply sim_bind; [apply sim_refl|]. intros scr ? <-. cbv zeta.
      eapply (sim_bind eq).
      { destruct (f_bor s).
        - eapply sim_bind; [apply slice_sim; [exact CB|subst K; lia]|].
          intros x ? <-. apply sim_ok. reflexivity.
        - eapply sim_bind; [apply sim_refl|]. intros x ? <-. apply sim_ok. reflexivity. }
      intros x ? <-. apply sim_ok. cbn [fst snd]. split; [reflexivity|subst K; lia].
    Qed.
    (** ** Deferred quoted and plain scalars *)
    Lemma flow_lazy_sim st single : lazy_mode o = lazy_mode o' ->
      sim (fun p p' => p = p' /\ snd (fst p) <= L)
        (scan_flow_scalar_lazy o base st single) (scan_flow_scalar_lazy o' (base ++ t) st single).
    Proof.
      intros NO. unfold scan_flow_scalar_lazy. set (K := sread st + L).
      eapply sim_bind; [apply cache_sim, E|]. intros [] [] L1.
      eapply sim_bind; [apply (adv_sim t K L); [apply near_self, CB|exact L1]|].
      intros [b1 st1] ? ((-> & H1) & _). cbn [fst snd] in *.
      eapply (sim_bind (fun p p' : str * stats => grown K L p p')).
      - apply (simk_loopk (fun p : str * stats => fst p = []) _ (fun p p' : str * stats => grown K L p p'));
          [| |apply fuel_app|split; [reflexivity|exact H1]].
        2:{ intros [b0 st0] E0. cbn [fst] in E0. subst b0. unfold flow_lazy_body. rewrite (cache_nil _ E). reflexivity. }
        clear H1 b1 st1. intros [b st1] ? (-> & H). cbn [fst snd] in *. unfold flow_lazy_body.
        eapply simk_bind; [apply cache_sim, E|]. intros [] [] L2.
        assert (b <> []) as N by (eapply long_ne; [|exact L2]; lia).
        pose proof (near_cut t _ _ _ _ H) as C.
        rewrite is_empty_app, !at_is_app, is_break_app, width_at_app by (auto; lia).
        destruct (is_empty b); [apply simk_err|].
        assert (GO : forall n, n <= List.length b -> simk (fun x : step (str * stats) (str * stats) => match x with Next p => fst p = [] | Done r => False end)
          (steps (fun p p' : str * stats => grown K L p p') (fun p p' : str * stats => grown K L p p'))
          (let* s := adv b st1 n in Ok (Next s)) (let* s := adv (b ++ t) st1 n in Ok (Next s))).
        { intros n Ln. eapply simk_bind; [apply (adv_sim t K L); [exact H|exact Ln]|].
          intros p p' (G & _). apply simk_ok. exact G. }
        destruct (single && at_is b 0 39 && at_is b 1 39 || negb single && at_is b 0 92 && at_is b 1 34); [apply GO; lia|].
        destruct (single && at_is b 0 39 || negb single && at_is b 0 34).
        { eapply simk_bind; [apply (adv_sim t K L); [exact H|lia]|].
          intros p p' (G & _). apply simk_ok. exact G. }
        destruct (is_break b).
        { eapply simk_bindg; [apply (adv_line_sim t K L); assumption| |].
          - intros [b2 st2] z E2. left. exact E2.
          - intros p p' G. apply simk_ok. exact G. }
        apply GO. pose proof (width_at_fits b 0 (cut_valid _ _ C) (Nat.le_0_l _)). lia.
      - intros [b2 st2] ? (-> & H2). cbn [fst snd] in *. rewrite consumed_grow.
        assert (consumed base b2 <= L) as LC by (unfold consumed; lia).
        eapply sim_bind; [apply slice_sim; [exact CB|exact LC]|]. intros x ? <-. apply sim_ok.
        unfold no_extend. rewrite NO. split; [reflexivity|exact LC].
    Qed.

    Lemma plain_lazy_word_sim K flow b st : near K L b st ->
      simk (fun p => fst (fst p) = [] /\ snd p = None)
        (fun p p' => exists b1 st1 stop, p = (b1, st1, stop) /\ p' = (b1 ++ t, st1, stop) /\ near K L b1 st1 /\ b1 <> [] /\
           forall n, stop = Some n -> n <= List.length b1)
        (loop (fuel_of b) (plain_lazy_word_body o flow) (b, st)) (loop (fuel_of (b ++ t)) (plain_lazy_word_body o' flow) (b ++ t, st)).
    Proof.
      intros H. apply (simk_loop _ (fun p p' : str * stats => grown K L p p')); [|apply fuel_app|split; [reflexivity|exact H]].
      clear H b st. intros [b st] ? (-> & H). cbn [fst snd] in *. unfold plain_lazy_word_body.
      destruct b as [|c0 r0] eqn:B0.
      { left. cbn. auto. }
      rewrite <- B0 in *. assert (b <> []) as N by (rewrite B0; discriminate). clear B0.
      pose proof (near_cut t _ _ _ _ H) as C. rewrite is_wsZ_app by assumption.
      destruct (is_wsZ b).
      { apply simk_ok. cbn. do 3 eexists. repeat (split; [eauto|]). discriminate. }
      eapply simk_bind; [apply cache_sim, E|]. intros [] [] L2.
      rewrite plain_end_app, is_ws_at_app by (auto; lia). destruct (plain_end flow b).
      { apply simk_ok. cbn. do 3 eexists. repeat (split; [eauto|]). intros n Q. destruct (is_ws_at b 1); injection Q as <-; lia. }
      eapply simk_bind; [apply (adv_sim t K L); [exact H|lia]|].
      intros p p' (G & _). apply simk_ok. exact G.
    Qed.

    Lemma plain_lazy_ws_sim K b st : near K L b st ->
      sim (fun p p' : str * stats => grown K L p p')
        (loop (fuel_of b) (plain_lazy_ws_body o) (b, st)) (loop (fuel_of (b ++ t)) (plain_lazy_ws_body o') (b ++ t, st)).
    Proof.
      intros H. apply (simk_loopk (fun p : str * stats => fst p = []) _ (fun p p' : str * stats => grown K L p p'));
        [| |apply fuel_app|split; [reflexivity|exact H]].
      2:{ intros [b0 st0] E0. cbn [fst] in E0. subst b0. unfold plain_lazy_ws_body. rewrite (cache_nil _ E). reflexivity. }
      clear H b st. intros [b st] ? (-> & H). cbn [fst snd] in *. unfold plain_lazy_ws_body.
      eapply simk_bind; [apply cache_sim, E|]. intros [] [] L1.
      assert (b <> []) as N by (eapply long_ne; [|exact L1]; lia).
      pose proof (near_cut t _ _ _ _ H) as C. rewrite is_blank_app, is_break_app by assumption.
      destruct (is_blank b).
      { eapply simk_bind; [apply (adv_sim t K L); [exact H|lia]|]. intros p p' (G & _). apply simk_ok. exact G. }
      destruct (is_break b).
      { eapply simk_bindg; [apply (adv_line_sim t K L); assumption| |].
        - intros [b2 st2] z E2. left. exact E2.
        - intros p p' G. apply simk_ok. exact G. }
      apply simk_ok. split; [reflexivity|exact H].
    Qed.

    Lemma plain_lazy_sim st indent block : lazy_mode o = lazy_mode o' ->
      sim (fun p p' => p = p' /\ snd (fst p) <= L)
        (scan_plain_scalar_lazy o base st indent block) (scan_plain_scalar_lazy o' (base ++ t) st indent block).
    Proof.
      intros NO. unfold scan_plain_scalar_lazy. set (K := sread st + L).
      eapply (sim_bind (fun p p' : stats * stats => p = p' /\ sread (fst p) <= K /\ sread (snd p) <= K)).
      - apply (sim_loop (fun p p' : str * stats * stats * bool => exists b local sc out, p = (b, local, sc, out) /\ p' = (b ++ t, local, sc, out) /\
          near K L b local /\ sread sc <= K)); [|apply fuel_app|].
        2:{ do 4 eexists. split; [reflexivity|split; [reflexivity|split; [apply near_self, CB|lia]]]. }
        intros p p' (b & local & sc & out & -> & -> & H & SC). unfold plain_lazy_body.
        eapply sim_bind; [apply cache_sim, E|]. intros [] [] L4.
        assert (b <> []) as N by (eapply long_ne; [|exact L4]; lia).
        pose proof (near_cut t _ _ _ _ H) as C.
        rewrite doc_app, is_empty_app, at_is_app, plain_end_app by (auto; lia).
        assert (LK : sread local <= K) by (destruct H as (_ & _ & H); lia).
        destruct (is_empty b || out || is_doc_indicator b (scol local) || at_is b 0 35 || plain_end (negb block) b).
        { apply sim_ok. cbn. auto. }
        eapply simk_bindk; [apply (plain_lazy_word_sim K), H| |].
        + intros [[b1 st1] stop] (B1 & S1). cbn [fst snd] in B1, S1. subst b1 stop. cbv zeta.
          cbn [fuel_of List.length loop]. unfold plain_lazy_ws_body. rewrite (cache_nil _ E). reflexivity.
        + intros p p' (b1 & st1 & stop & -> & -> & H1 & N1 & LS).
          assert (LK1 : sread st1 + List.length b1 <= K) by (destruct H1 as (_ & _ & H1); lia).
          destruct stop as [n|].
          * specialize (LS n eq_refl). apply sim_ok. cbn. split; [reflexivity|]. lia.
          * cbv zeta. eapply sim_bind; [apply (plain_lazy_ws_sim K), H1|]. intros [b2 st2] ? (-> & H2). cbn [fst snd] in *.
            apply sim_ok. cbn. do 4 eexists. split; [reflexivity|split; [reflexivity|split; [exact H2|]]]. lia.
      - intros [local sc] ? (<- & HL & HS). cbn [fst snd] in *. subst K.
        eapply sim_bind; [apply slice_sim; [exact CB|lia]|]. intros x ? <-. apply sim_ok.
        unfold no_extend. rewrite NO. split; [reflexivity|cbn; lia].
    Qed.
  End Base.
End Scalar.
