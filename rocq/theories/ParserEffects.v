(** What every transition of the parser does to its directives and end flag, and
    the facts that follow from the grammar. *)
From Verif Require Export ParserLang.

Ltac pstep :=
  match goal with
  | |- always _ (pbind _ _ _) _ _ => apply always_bind
  | |- always _ (pret _ _) _ _ => apply always_ret
  | |- always _ (deliver _ _ _ _) _ _ => apply always_ret
  | |- always _ (empty_scalar _ _ _) _ _ => apply always_ret
  | |- always _ (pfail _ _) _ _ => apply always_fail
  | |- always _ (pupd _ _) _ _ => apply always_upd
  | |- always _ (activate _ _) _ _ => apply always_upd
  | |- always _ (peek _ _) _ _ => apply reads_peek; intros [[? ?]|?| |]
  | |- always _ (pop _ _) _ _ => apply reads_pop; intros [?|?| |]
  | |- always _ (consume _ _) _ _ => apply reads_consume; intros [[? ?]|?| |]
  | |- always _ (consume_scalar _ _) _ _ => apply reads_consume_scalar; intros [[? ?]|?| |]
  | |- always _ (debug_assert _ _ _) _ _ => apply reads_assert; intros [?|?| |]
  | |- always _ (budget _ _) _ _ => apply reads_budget; intros [?|?| |]
  | |- always _ (properties _ _ _ _) _ _ => apply reads_properties; intros [[[? ?] ?]|?| |]
  | |- always _ (skip_document_ends _ _ _) _ _ => apply reads_skip; intros [?|?| |]
  | |- always _ (scan_document_directives _ _) _ _ =>
      apply reads_scan_document_directives; intros [[[? ?] ?]|?| |]
  end.
Ltac pbranch :=
  match goal with
  | |- always _ (match ?t with _ => _ end) _ _ => destruct t
  | |- always _ (if ?t then _ else _) _ _ => destruct t
  end.

Section Effects.
  Variable R : Type.
  Variable T : token_source R.
  Variable debug : bool.

  Definition effect_ok (p : parser) (x : pres (option event)) (p' : parser) : Prop :=
    match x with
    | Ok (Some e) =>
        match ev_data e with
        | EvDocumentStart d _ =>
            ps_dirs p' = mkDirs (d_version d) (tags_to_owned (d_tags d)) /\
            ps_done p' = ps_done p
        | EvStreamEnd => ps_dirs p' = ps_dirs p /\ ps_done p' = true
        | d =>
            ps_dirs p' = ps_dirs p /\ ps_done p' = ps_done p /\
            forall h s, event_tag d = Some (h, s) ->
                        tag_get (d_tags (ps_dirs p)) (cow_str h) <> None
        end
    | _ => ps_dirs p' = ps_dirs p /\ ps_done p' = ps_done p
    end.

  Lemma effect_fail p x p' :
    match x with Ok (Some _) => False | _ => True end ->
    ps_dirs p' = ps_dirs p -> ps_done p' = ps_done p -> effect_ok p x p'.
  Proof. destruct x as [[e|]|e| |]; cbn; intros [] **; auto. Qed.

  Lemma pop_dirs p : ps_dirs (st_pop p) = ps_dirs p.
  Proof. destruct p as [s [|a r] d b]; reflexivity. Qed.
  Lemma pop_done p : ps_done (st_pop p) = ps_done p.
  Proof. destruct p as [s [|a r] d b]; reflexivity. Qed.

  Lemma validate_sound tags n b n' :
    validate_tag tags n b = Ok n' ->
    forall h s, n_tag n' = Some (h, s) -> tag_get tags (cow_str h) <> None.
  Proof.
    unfold validate_tag. destruct (n_tag n) as [[h0 s0]|] eqn:E.
    - destruct (b && _); [intros X; inversion X; discriminate|].
      destruct (tag_get tags (cow_str h0)) eqn:G; [|discriminate].
      intros X; inversion X; subst. rewrite E. intros h s Y; inversion Y; subst.
      rewrite G; discriminate.
    - intros X; inversion X; subst. rewrite E; discriminate.
  Qed.

  Lemma checked_effect p0 s e n b mk p :
    ps_dirs p = ps_dirs p0 -> ps_done p = ps_done p0 ->
    (forall n', match mk n' with EvDocumentStart _ _ | EvStreamEnd => False | _ => True end /\
                event_tag (mk n') = n_tag n') ->
    always R (checked R s e n b mk) p (effect_ok p0).
  Proof.
    intros HD HN HM r p' r' x E. unfold checked in E.
    destruct (validate_tag _ _ _) as [n'|x'| |] eqn:V; inversion E; subst;
      try (apply effect_fail; [exact I|assumption|assumption]).
    rewrite HD in V. unfold effect_ok; cbn [ev_data].
    destruct (HM n') as [H1 H2]. pose proof (validate_sound _ _ _ _ V) as S.
    destruct (mk n'); try destruct H1;
      (split; [assumption|split; [assumption|]]); intros h t; rewrite H2; apply S.
  Qed.

  Ltac eff :=
    repeat first [pstep | pbranch | apply checked_effect; [..|intros; split; [exact I|reflexivity]]
                 | apply effect_fail; [exact I|..]];
    cbn; rewrite ?pop_dirs, ?pop_done; try reflexivity;
    try (split; [reflexivity|split; [reflexivity|discriminate]]).

  Lemma node_effect b k p0 p :
    ps_dirs p = ps_dirs p0 -> ps_done p = ps_done p0 ->
    always R (parse_node R T b k) p (effect_ok p0).
  Proof.
    intros HD HN.
    assert (HP : forall x, match x with Ok (Some _) => False | _ => True end -> effect_ok p0 x p)
      by (intros; apply effect_fail; assumption).
    assert (HPop : forall x, match x with Ok (Some _) => False | _ => True end ->
              effect_ok p0 x (st_pop p)).
    { intros; apply effect_fail; rewrite ?pop_dirs, ?pop_done; assumption. }
    assert (HE : forall x y n, always R (node_empty R x y n) p (effect_ok p0)).
    { intros x y n. unfold node_empty. destruct (n_anchor n), (n_tag n); repeat pstep;
        try (apply HP; exact I);
        apply checked_effect; rewrite ?pop_dirs, ?pop_done; try assumption;
        intros; split; solve [exact I|reflexivity]. }
    unfold parse_node. pstep. pstep; try (apply HP; exact I).
    assert (HC : forall x m, always R (node_content R T b k x m) p (effect_ok p0)).
    { intros x0 m0. unfold node_content.
      pstep; pstep; try (apply HP; exact I).
      pstep; pstep; try (apply HP; exact I).
      unfold node_variant. pbranch; try apply HE; try (destruct b; [|apply HE]);
      repeat pstep; try (apply HP; exact I);
      apply checked_effect; cbn; rewrite ?pop_dirs, ?pop_done; try assumption;
        intros; split; solve [exact I|reflexivity]. }
    pbranch; try apply HC.
    repeat pstep; try (apply HPop; exact I).
    pbranch; repeat pstep; try (apply HPop; exact I).
    cbn; rewrite pop_dirs, pop_done. repeat split; try assumption; discriminate.
  Qed.

  Lemma transition_effect p :
    always R (state_transition R T debug) p (effect_ok p).
  Proof.
    unfold state_transition.
    intros r p' r' x. unfold pbind at 1. revert r p' r' x.
    match goal with
    | |- forall r p' r' x, ?m _ r = _ -> effect_ok ?p x p' => change (always R m p (effect_ok p))
    end.
    destruct (ps_top p);
      unfold stream_start, document_start, explicit_document_content, document_end,
        block_sequence_entry, block_mapping_key, block_mapping_value, flow_sequence_entry,
        flow_sequence_entry_mapping_key, flow_sequence_entry_mapping_value,
        flow_sequence_entry_mapping_end, flow_mapping_key, flow_mapping_value, fetch_end.
    all: try (repeat first [apply node_effect; reflexivity | pstep | pbranch
                 | apply effect_fail; [exact I|..]];
       cbn; rewrite ?pop_dirs, ?pop_done; try reflexivity;
       try (split; [reflexivity|split; [reflexivity|discriminate]]);
       try (split; reflexivity); fail).
    intros r p' r' x. unfold stream_end. unfold pbind at 1; cbn [ps_done].
    revert r p' r' x.
    match goal with
    | |- forall r p' r' x, ?m _ r = _ -> effect_ok ?p x p' => change (always R m p (effect_ok p))
    end.
    repeat first [pstep | pbranch | apply effect_fail; [exact I|..]]; cbn; auto.
  Qed.

  Lemma event_loop_effect n p :
    always R (event_loop R T debug n) p
      (fun x p' => effect_ok p x p' /\ (x = Ok None -> ps_done p' = true) /\
                   (ps_done p = true -> x = Ok None)).
  Proof.
    revert p; induction n as [|n IH]; intros p r p' r' x; cbn [event_loop];
      destruct (ps_done p) eqn:D; intros E.
    - inversion E; subst; repeat split; auto.
    - inversion E; subst; repeat split; auto; discriminate.
    - inversion E; subst; repeat split; auto.
    - destruct (state_transition R T debug p r) as [[p1 r1] y] eqn:M.
      pose proof (transition_effect p _ _ _ _ M) as H1.
      destruct y as [[e|]|e| |]; try (inversion E; subst; split; [exact H1|split; [discriminate|discriminate]]).
      cbn in H1. destruct H1 as [HD HN].
      destruct (IH p1 _ _ _ _ E) as (H2 & H3 & H4).
      rewrite D in HN.
      repeat split; [|exact H3|discriminate].
      unfold effect_ok in *. rewrite HD, HN in H2. rewrite D. exact H2.
  Qed.

  Lemma next_event_effect p :
    always R (next_event T debug) p
      (fun x p' => effect_ok p x p' /\ (x = Ok None -> ps_done p' = true) /\
                   (ps_done p = true -> x = Ok None)).
  Proof. apply event_loop_effect. Qed.

  Lemma run_done n p r : ps_done p = true ->
    run_events T debug n p r = repeat (Ok None) n.
  Proof.
    revert p r; induction n as [|n IH]; intros p r D; cbn [run_events repeat]; [reflexivity|].
    destruct (next_event T debug p r) as [[p' r'] x] eqn:E.
    destruct (next_event_effect p _ _ _ _ E) as (H1 & H2 & H3).
    specialize (H3 D); subst x. f_equal. apply IH, H2, eq_refl.
  Qed.

  (** Once [None] or the end of the stream was delivered, only [None] follows. *)
  Lemma run_fused n p r i :
    let xs := run_events T debug n p r in
    (nth_error xs i = Some (Ok None) \/
     exists e, nth_error xs i = Some (Ok (Some e)) /\ ev_data e = EvStreamEnd) ->
    forall j, i < j -> j < n -> nth_error xs j = Some (Ok None).
  Proof.
    revert p r i; induction n as [|n IH]; intros p r i; cbn [run_events].
    - intros [H|(e & H & _)]; destruct i; discriminate.
    - destruct (next_event T debug p r) as [[p' r'] x] eqn:E.
      destruct (next_event_effect p _ _ _ _ E) as (H1 & H2 & _).
      cbv zeta. intros H [|j] Hij Hjn; [inversion Hij|]. cbn [nth_error].
      destruct i as [|i].
      + assert (D : ps_done p' = true).
        { destruct H as [H|(e & H & He)]; cbn in H; inversion H; subst; [apply H2; reflexivity|].
          unfold effect_ok in H1; rewrite He in H1; apply H1. }
        rewrite run_done by exact D.
        apply nth_error_repeat. apply Nat.succ_lt_mono, Hjn.
      + apply (IH p' r' i); [exact H|apply Nat.succ_lt_mono, Hij|apply Nat.succ_lt_mono, Hjn].
  Qed.

  (** Tags resolve in the directives last delivered. *)
  Lemma tag_get_owned m h :
    tag_get (tags_to_owned m) h = None <-> tag_get m h = None.
  Proof.
    induction m as [|[k v] r IH]; cbn; [tauto|].
    replace (cow_str (own k)) with (cow_str k) by (destruct k; reflexivity).
    destruct (str_eqb (cow_str k) h); [split; discriminate|exact IH].
  Qed.
End Effects.
