(** Cut texts: white space, names, tags, directives and quoted scalars. *)
From Verif Require Import CutFacts QuotedFacts FlowFacts Contract.
From Coq Require Import Lia ZifyBool ZifyN ZifyNat.
Open Scope nat_scope.

Section Leaf.
  Variables (t : str) (o o' : flags).
  Hypothesis E : extendable o = true.
  Notation near := (near t).
  Notation grown := (grown t).

  Lemma near_ne K L b st n : near K L b st -> 0 < n -> n <= List.length b -> b <> [].
  Proof. intros _. apply long_ne. Qed.
  Lemma near_cut K L b st : near K L b st -> cut t b. Proof. unfold CutFacts.near. tauto. Qed.
  Lemma near_self b st : cut t b -> near (sread st + List.length b) (List.length b) b st.
  Proof. intros C. split; [exact C|split; [apply le_n|reflexivity]]. Qed.

  Lemma eat_ws_sim K L b st cm : near K L b st ->
    sim (fun p p' => grown K L p p' /\ fst p <> []) (eat_whitespace o b st cm) (eat_whitespace o' (b ++ t) st cm).
  Proof.
    intros H. unfold eat_whitespace.
    apply (simk_loopk (fun p : str * stats * bool => fst (fst p) = []) _ (fun p p' : str * stats * bool => exists b st ch, p = (b, st, ch) /\ p' = (b ++ t, st, ch) /\ near K L b st));
      [| |apply fuel_app|eauto 6].
    2:{ intros [[b0 st0] ch0] E0. cbn [fst] in E0. subst b0. unfold eat_ws_body. rewrite (cache_nil _ E). reflexivity. }
    clear H b st. intros p p' (b & st & ch & -> & -> & H). unfold eat_ws_body.
    eapply simk_bind; [apply cache_sim, E|]. intros [] [] Lb.
    assert (b <> []) as N by (eapply near_ne; eauto). pose proof (near_cut _ _ _ _ H) as C.
    rewrite is_blank_app, (is_break_app t b C N), at_is_app, is_empty_app by (auto; lia).
    assert (forall ch', simk (fun x : step (str * stats * bool) (str * stats) => match x with Next p => fst (fst p) = [] | Done _ => False end) (steps (fun p p' : str * stats * bool => exists b st ch, p = (b, st, ch) /\ p' = (b ++ t, st, ch) /\ near K L b st)
         (fun (p p' : str * stats) => grown K L p p' /\ fst p <> []))
      (if is_break b then let* ' (buf', st') := adv_line b st in Ok (Next (buf', st', ch'))
       else let* ' (buf', st') := adv b st 1 in Ok (Next (buf', st', ch')))
      (if is_break b then let* ' (buf', st') := adv_line (b ++ t) st in Ok (Next (buf', st', ch'))
       else let* ' (buf', st') := adv (b ++ t) st 1 in Ok (Next (buf', st', ch')))) as Go.
    { intros ch'. destruct (is_break b).
      - eapply simk_bindg; [apply adv_line_sim; eauto| |].
        + intros [b1 st1] z E1. left. exact E1.
        + intros [b1 st1] p' (-> & G). apply simk_ok. cbn in G |- *. eauto 6.
      - eapply simk_bind; [apply adv_sim; eauto|].
        intros [b1 st1] p' ((-> & G) & _). apply simk_ok. cbn in G |- *. eauto 6. }
    cbv zeta. destruct (is_blank b); [apply Go|]. destruct (is_break b) eqn:B; [apply (Go false)|].
    destruct (cm && at_is b 0 35); [apply Go|]. destruct (ch && negb (is_empty b)); [apply Go|].
    apply simk_ok. cbn. unfold CutFacts.grown. cbn. auto.
  Qed.

  Lemma take_while_sim f : forall b : str,
    sim (fun n n' => n = n' /\ n < List.length b) (take_while o f b) (take_while o' f (b ++ t)).
  Proof.
    induction b as [|c b IH].
    - change (take_while o f []) with (bind (cache o [] 1) (fun _ => @Ok scan_error nat 0)).
      rewrite (cache_nil _ E). exact Logic.I.
    - change ((c :: b) ++ t) with (c :: (b ++ t)). cbn [take_while].
      eapply sim_bind; [apply (cache_sim t o o' E (c :: b))|]. intros [] [] _.
      destruct (f c).
      + eapply sim_bind; [apply IH|]. intros n ? (<- & L). apply sim_ok. cbn. lia.
      + apply sim_ok. cbn. lia.
  Qed.

  Definition same3 K L (p p' : token * str * stats) : Prop :=
    exists tok b st, p = (tok, b, st) /\ p' = (tok, b ++ t, st) /\ near K L b st.

  Lemma anchor_sim K L b st al : near K L b st -> b <> [] ->
    sim (same3 K L) (scan_anchor o b st al) (scan_anchor o' (b ++ t) st al).
  Proof.
    intros H N. unfold scan_anchor.
    eapply sim_bind; [apply adv_sim; [exact H|destruct b; [congruence|cbn; lia]]|].
    intros [b1 st1] p' ((-> & H1) & _). cbn [fst snd] in *.
    eapply sim_bind; [apply take_while_sim|]. intros n ? (<- & Ln).
    rewrite firstn_app_le by lia.
    eapply sim_bind; [apply adv_sim; [exact H1|lia]|].
    intros [b2 st2] p' ((-> & H2) & _). cbn [fst snd] in *.
    destruct (is_empty (firstn n b1)); [apply sim_err|].
    eapply sim_bind; [apply cache_sim, E|]. intros [] [] L2.
    destruct b2 as [|c b2]; [cbn in L2; lia|]. cbn [app].
    destruct (anchor_follow c); [|apply sim_err]. apply sim_ok. do 3 eexists. eauto.
  Qed.

  (** ** Escapes *)
  Lemma read_hex_app n : forall (b : str) v, n <= List.length b -> read_hex n (b ++ t) v = read_hex n b v.
  Proof.
    induction n as [|n IH]; intros b v L; [reflexivity|].
    destruct b as [|c b]; cbn [List.length] in L; [lia|]. cbn [app read_hex].
    destruct (is_hex_byte c); [apply IH; lia|reflexivity].
  Qed.
  Lemma sim_refl {A} (x : sres A) : sim eq x x.
  Proof. destruct x as [a|e| |]; [apply sim_ok; reflexivity|apply sim_err|reflexivity|exact Logic.I]. Qed.

  Lemma unescape_sim b : cut t b ->
    sim (fun p p' => p = p' /\ snd p <= List.length b) (flow_unescape o b) (flow_unescape o' (b ++ t)).
  Proof.
    intros C. unfold flow_unescape.
    eapply sim_bind; [apply cache_sim, E|]. intros [] [] L. rewrite at_is_app by lia.
    destruct (negb (at_is b 0 92)); [apply sim_ok; cbn; split; [reflexivity|lia]|].
    eapply sim_bind; [apply skip_sim; [exact C|lia]|]. intros b1 ? (-> & _ & C1 & L1).
    eapply sim_bind; [apply cache_sim, E|]. intros [] [] L2.
    destruct b1 as [|c b1]; [cbn in L2; lia|]. change ((c :: b1) ++ t) with (c :: (b1 ++ t)). cbv iota beta.
    destruct (escape_of c) as [[w|n]|]; [| |apply sim_err].
    - change (c :: (b1 ++ t)) with ((c :: b1) ++ t).
      eapply sim_bind; [apply skip_sim; [exact C1|lia]|]. intros b2 ? (-> & _ & C2 & L3).
      apply sim_ok. rewrite consumed_grow. cbn. unfold consumed. split; [reflexivity|lia].
    - change (c :: (b1 ++ t)) with ((c :: b1) ++ t).
      eapply sim_bind; [apply skip_sim; [exact C1|lia]|]. intros b2 ? (-> & _ & C2 & L3).
      eapply sim_bind; [apply cache_sim, E|]. intros [] [] L4. rewrite read_hex_app by exact L4.
      eapply sim_bind; [apply sim_refl|]. intros v ? <-.
      eapply sim_bind; [apply skip_sim; [exact C2|exact L4]|]. intros b3 ? (-> & _ & C3 & L5).
      apply sim_ok. rewrite consumed_grow. cbn. unfold consumed. split; [reflexivity|lia].
  Qed.

  Lemma uri_unescape_sim b : cut t b ->
    sim (fun p p' => p = p' /\ snd p <= List.length b) (tag_uri_unescape o b) (tag_uri_unescape o' (b ++ t)).
  Proof.
    intros C. unfold tag_uri_unescape.
    eapply (sim_bind (fun p p' : str * str => exists b1 out, p = (b1, out) /\ p' = (b1 ++ t, out) /\ List.length b1 <= List.length b)).
    - apply (sim_loop (fun p p' : str * str * option nat => exists b1 out pd, p = (b1, out, pd) /\ p' = (b1 ++ t, out, pd) /\ cut t b1 /\ List.length b1 <= List.length b));
        [|apply fuel_app|eauto 8].
      clear C. intros p p' (b1 & out & pd & -> & -> & C & L). unfold uri_unescape_body.
      eapply sim_bind; [apply cache_sim, E|]. intros [] [] L1.
      destruct b1 as [|c1 [|c2 [|c3 b1]]]; cbn [List.length] in L1; try lia.
      change ((c1 :: c2 :: c3 :: b1) ++ t) with (c1 :: c2 :: c3 :: (b1 ++ t)). cbv iota beta.
      destruct ((c1 =? 37)%N && is_hex_byte c2 && is_hex_byte c3); [|apply sim_err]. cbv zeta.
      eapply sim_bind; [apply sim_refl|]. intros len ? <-.
      eapply sim_bind; [apply (skip_sim t (c1 :: c2 :: c3 :: b1)); [exact C|exact L1]|].
      intros b2 ? (-> & _ & C2 & L2).
      destruct len as [|[|k]]; apply sim_ok; cbn [List.length steps] in *; repeat eexists; try apply C2; lia.
    - intros p p' (b1 & out & -> & -> & L). apply sim_ok. rewrite consumed_grow. cbn. unfold consumed.
      split; [reflexivity|lia].
  Qed.

  (** ** Tags and directives *)
  Lemma tag_uri_sim b st bor vb : cut t b ->
    sim (fun p p' => p = p' /\ snd (fst (fst p)) < List.length b)
      (scan_tag_uri o b st bor vb) (scan_tag_uri o' (b ++ t) st bor vb).
  Proof.
    intros C. unfold scan_tag_uri.
    eapply (sim_bind (fun p p' : str * stats * str * bool => exists b1 st1 scr bor1, p = (b1, st1, scr, bor1) /\
      p' = (b1 ++ t, st1, scr, bor1) /\ List.length b1 <= List.length b /\ b1 <> [])).
    - apply (sim_loop (fun p p' : str * stats * str * bool => exists b1 st1 scr bor1, p = (b1, st1, scr, bor1) /\
        p' = (b1 ++ t, st1, scr, bor1) /\ cut t b1 /\ List.length b1 <= List.length b));
        [|apply fuel_app|do 4 eexists; split; [reflexivity|split; [reflexivity|split; [exact C|lia]]]].
      intros p p' (b1 & st1 & scr & bor1 & -> & -> & C1 & L). unfold tag_uri_body.
      eapply sim_bind; [apply cache_sim, E|]. intros [] [] L1.
      destruct b1 as [|c b1]; [cbn in L1; lia|]. change ((c :: b1) ++ t) with (c :: (b1 ++ t)). cbv iota beta.
      assert (near (sread st1 + List.length (c :: b1)) (List.length b) (c :: b1) st1) as H by (split; [exact C1|lia]).
      destruct (uri_byte c || vb && uri_verbatim_byte c).
      { cbv zeta. eapply sim_bind; [apply (adv_sim t _ _ (c :: b1) st1 1 H L1)|].
        intros [b2 st2] p' ((-> & H2) & _). apply sim_ok. destruct H2 as (C2 & L2 & _). cbn in *.
        do 4 eexists. split; [reflexivity|split; [reflexivity|auto]]. }
      destruct (c =? 37)%N.
      { cbv zeta. change (c :: (b1 ++ t)) with ((c :: b1) ++ t). rewrite consumed_grow.
        rewrite firstn_app_le by (unfold consumed; lia).
        eapply sim_bind; [apply (uri_unescape_sim (c :: b1) C1)|]. intros [w n] ? (<- & Ln).
        eapply sim_bind; [apply (adv_sim t _ _ (c :: b1) st1 n H Ln)|].
        intros [b2 st2] p' ((-> & H2) & _). apply sim_ok. destruct H2 as (C2 & L2 & _). cbn in *.
        do 4 eexists. split; [reflexivity|split; [reflexivity|auto]]. }
      apply sim_ok. cbn. do 4 eexists. split; [reflexivity|split; [reflexivity|split; [exact L|congruence]]].
    - intros p p' (b1 & st1 & scr & bor1 & -> & -> & L & N). rewrite consumed_grow. cbv zeta.
      assert (0 < List.length b1) by (destruct b1; [congruence|cbn; lia]).
      destruct bor1.
      + eapply sim_bind; [apply slice_sim; [exact C|unfold consumed; lia]|]. intros x ? <-.
        apply sim_ok. cbn. unfold consumed. split; [reflexivity|lia].
      + eapply sim_bind; [apply sim_refl|]. intros x ? <-.
        apply sim_ok. cbn. unfold consumed. split; [reflexivity|lia].
  Qed.

  Lemma handle_sim b st : cut t b ->
    sim (fun p p' => p = p' /\ match fst p with Some (_, n) => n <= List.length b | None => True end)
      (scan_tag_handle o b st) (scan_tag_handle o' (b ++ t) st).
  Proof.
    intros C. unfold scan_tag_handle.
    eapply sim_bind; [apply cache_sim, E|]. intros [] [] L1.
    destruct b as [|c b]; [cbn in L1; lia|]. change ((c :: b) ++ t) with (c :: (b ++ t)). cbv iota beta.
    destruct (c =? 33)%N; [|apply sim_err]. change (c :: (b ++ t)) with ((c :: b) ++ t).
    eapply sim_bind; [apply (skip_sim t (c :: b) 1 C L1)|]. intros b1 ? (-> & _ & C1 & L2).
    eapply sim_bind; [apply take_while_sim|]. intros n ? (<- & Ln). cbv zeta.
    eapply sim_bind; [apply (cache_at_sim t o o' E 1)|]. intros [] [] Lo.
    rewrite at_is_app, is_ws_at_app by (auto; lia).
    destruct (at_is (c :: b) (1 + n) 33).
    { eapply sim_bind; [apply slice_sim; [exact C|lia]|]. intros x ? <-. apply sim_ok. cbn [fst]. split; [reflexivity|lia]. }
    destruct (Nat.eqb n 0 && is_ws_at (c :: b) (1 + n)).
    { eapply sim_bind; [apply slice_sim; [exact C|lia]|]. intros x ? <-. apply sim_ok. cbn [fst]. split; [reflexivity|lia]. }
    replace (Nat.ltb (1 + n) (List.length ((c :: b) ++ t))) with true by (symmetry; apply Nat.ltb_lt; rewrite app_length; lia).
    replace (Nat.ltb (1 + n) (List.length (c :: b))) with true by (symmetry; apply Nat.ltb_lt; lia).
    apply sim_ok. cbn. auto.
  Qed.

  Lemma skipn_ne (b : str) n : n < List.length b -> skipn n b <> [].
  Proof. intros L H. apply (f_equal (@List.length N)) in H. rewrite skipn_length in H. cbn in H. lia. Qed.

  Lemma tag_directive_sim b st : cut t b ->
    sim (fun p p' => p = p' /\ snd (fst p) <= List.length b)
      (scan_tag_directive o b st) (scan_tag_directive o' (b ++ t) st).
  Proof.
    intros C. unfold scan_tag_directive.
    eapply sim_bind; [apply handle_sim, C|]. intros [[[h n]|] st1] ? (<- & L); [|apply sim_err].
    cbn [fst] in L. cbv zeta.
    eapply sim_bind; [apply skip_sim; [exact C|exact L]|]. intros b1 ? (-> & _ & C1 & L1).
    eapply sim_bind; [apply cache_sim, E|]. intros [] [] L2.
    assert (b1 <> []) as N1 by (eapply long_ne; [|exact L2]; lia).
    rewrite is_empty_app, is_blank_app by exact N1.
    destruct (is_empty b1); [apply sim_err|]. destruct (negb (is_blank b1)); [apply sim_err|].
    eapply sim_bind; [apply (eat_ws_sim (sread st1 + List.length b1) (List.length b1)), near_self, C1|].
    intros [b2 st2] p' ((-> & C2 & L3 & _) & N2). cbn [fst snd] in *.
    eapply sim_bind; [apply tag_uri_sim, C2|]. intros [[[pre m] st3] bor] ? (<- & Lm). cbn [fst snd] in Lm.
    rewrite is_ws_at_app by assumption. rewrite skipn_app_le by lia.
    destruct (is_ws_at b2 m).
    - eapply sim_bind; [apply skip_sim; [exact C2|lia]|]. intros b3 ? (-> & _ & C3 & L4).
      rewrite consumed_grow. apply sim_ok. cbn. unfold consumed. split; [reflexivity|lia].
    - rewrite is_empty_app by (apply skipn_ne, Lm).
      destruct (is_empty (skipn m b2)); apply sim_err.
  Qed.

  Lemma node_tag_sim b st : cut t b ->
    sim (fun p p' => p = p' /\ snd (fst p) <= List.length b)
      (scan_node_tag o b st) (scan_node_tag o' (b ++ t) st).
  Proof.
    intros C. unfold scan_node_tag.
    eapply sim_bind; [apply cache_sim, E|]. intros [] [] L0.
    rewrite starts_with_app by (cbn; exact L0).
    eapply (sim_bind (fun p p' : token * str * nat * stats => exists tok b1 n st1, p = (tok, b1, n, st1) /\
      p' = (tok, b1 ++ t, n, st1) /\ cut t b1 /\ List.length b1 <= List.length b /\ n <= List.length b1)).
    - destruct (starts_with b (bytes "!<")).
      + eapply sim_bind; [apply skip_sim; [exact C|exact L0]|]. intros b1 ? (-> & _ & C1 & L1).
        eapply sim_bind; [apply tag_uri_sim, C1|]. intros [[[pre m] st3] bor] ? (<- & Lm). cbn [fst snd] in Lm.
        eapply sim_bind; [apply (cache_at_sim t o o' E 1)|]. intros [] [] Lo.
        rewrite at_is_app by lia. destruct (at_is b1 (m + 1) 62).
        * apply sim_ok. do 4 eexists. split; [reflexivity|split; [reflexivity|]]. split; [exact C1|lia].
        * replace (Nat.ltb (m + 1) (List.length (b1 ++ t))) with true by (symmetry; apply Nat.ltb_lt; rewrite app_length; lia).
          replace (Nat.ltb (m + 1) (List.length b1)) with true by (symmetry; apply Nat.ltb_lt; lia).
          apply sim_err.
      + eapply sim_bind; [apply handle_sim, C|]. intros [h st1] ? (<- & L). cbn [fst] in L.
        assert (forall h n, n <= List.length b -> sim (fun p p' : token * str * nat * stats => exists tok b1 n st1, p = (tok, b1, n, st1) /\
            p' = (tok, b1 ++ t, n, st1) /\ cut t b1 /\ List.length b1 <= List.length b /\ n <= List.length b1)
          (let* buf := skip b n in
           let* ' (suffix, amt, st, borrow) := scan_tag_uri o buf st1 true false in
           Ok (assemble_tag h suffix borrow, buf, amt, st))
          (let* buf := skip (b ++ t) n in
           let* ' (suffix, amt, st, borrow) := scan_tag_uri o' buf st1 true false in
           Ok (assemble_tag h suffix borrow, buf, amt, st))) as Go.
        { intros h0 n Ln. eapply sim_bind; [apply skip_sim; [exact C|exact Ln]|]. intros b1 ? (-> & _ & C1 & L1).
          eapply sim_bind; [apply tag_uri_sim, C1|]. intros [[[pre m] st3] bor] ? (<- & Lm). cbn [fst snd] in Lm.
          apply sim_ok. do 4 eexists. split; [reflexivity|split; [reflexivity|]]. split; [exact C1|lia]. }
        destruct h as [[h n]|].
        * destruct h as [h|h|h]; [|apply Go, L|apply Go, L].
          apply sim_ok. do 4 eexists. split; [reflexivity|split; [reflexivity|]]. split; [exact C|lia].
        * eapply sim_bind; [apply cache_sim, E|]. intros [] [] L1.
          eapply sim_bind; [apply slice_sim; [exact C|exact L1]|]. intros x ? <-.
          eapply sim_bind; [apply (adv_sim t (sread st1 + List.length b) (List.length b)); [apply near_self, C|exact L1]|].
          intros [b1 st2] p' ((-> & C1 & L2 & _) & _). cbn [fst snd] in *.
          eapply sim_bind; [apply tag_uri_sim, C1|]. intros [[[pre m] st3] bor] ? (<- & Lm). cbn [fst snd] in Lm.
          apply sim_ok. do 4 eexists. split; [reflexivity|split; [reflexivity|]]. split; [exact C1|lia].
    - intros p p' (tok & b1 & n & st1 & -> & -> & C1 & L1 & Ln).
      eapply sim_bind; [apply skip_sim; [exact C1|exact Ln]|]. intros b2 ? (-> & _ & C2 & L2).
      rewrite consumed_grow. apply sim_ok. cbn. unfold consumed. split; [reflexivity|lia].
  Qed.

  Lemma version_sim b :
    sim (fun p p' => p = p' /\ snd p < List.length b) (scan_directive_version o b) (scan_directive_version o' (b ++ t)).
  Proof.
    unfold scan_directive_version. eapply sim_bind; [apply take_while_sim|]. intros n ? (<- & L).
    rewrite firstn_app_le by lia. destruct (atoi_u8 (firstn n b)); [|apply sim_err].
    apply sim_ok. cbn. auto.
  Qed.

  Lemma directive_sim K L b st k : near K L b st ->
    sim (fun p p' => exists tok b1 st1, p = (tok, b1, st1) /\ p' = (tok, b1 ++ t, st1) /\ cut t b1 /\ List.length b1 <= L)
      (scan_directive o b st k) (scan_directive o' (b ++ t) st k).
  Proof.
    intros H. unfold scan_directive.
    eapply sim_bind; [apply (eat_ws_sim K L), H|]. intros [b1 st1] p' ((-> & H1) & N1). cbn [fst snd] in *.
    destruct k.
    - eapply sim_bind; [apply version_sim|]. intros [v n] ? (<- & Ln). cbn [snd] in Ln.
      eapply sim_bind; [apply (adv_sim t K L); [exact H1|lia]|].
      intros [b2 st2] p' ((-> & H2) & _). cbn [fst snd] in *.
      eapply sim_bind; [apply cache_sim, E|]. intros [] [] L2.
      destruct b2 as [|c b2]; [cbn in L2; lia|]. change ((c :: b2) ++ t) with (c :: (b2 ++ t)). cbv iota beta.
      destruct (c =? 46)%N; [|apply sim_err]. change (c :: (b2 ++ t)) with ((c :: b2) ++ t).
      eapply sim_bind; [apply (adv_sim t K L); [exact H2|exact L2]|].
      intros [b3 st3] p' ((-> & H3) & _). cbn [fst snd] in *.
      eapply sim_bind; [apply version_sim|]. intros [v2 n2] ? (<- & Ln2). cbn [snd] in Ln2.
      eapply sim_bind; [apply (adv_sim t K L); [exact H3|lia]|].
      intros [b4 st4] p' ((-> & H4) & _). cbn [fst snd] in *.
      apply sim_ok. do 3 eexists. split; [reflexivity|split; [reflexivity|]]. destruct H4 as (C4 & L4 & _). auto.
    - destruct H1 as (C1 & L1 & _).
      eapply sim_bind; [apply tag_directive_sim, C1|]. intros [[tok n] st2] ? (<- & Ln). cbn [fst snd] in Ln.
      eapply sim_bind; [apply skip_sim; [exact C1|exact Ln]|]. intros b2 ? (-> & _ & C2 & L2).
      apply sim_ok. do 3 eexists. split; [reflexivity|split; [reflexivity|]]. split; [exact C2|lia].
  Qed.
End Leaf.
