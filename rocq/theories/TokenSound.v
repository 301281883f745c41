(** Soundness of the parser for the translation grammar: what it reads to the end of
    the stream is derivable. *)
From Verif Require Export TokenStream.

Section Sound.
  Variable debug : bool.
  Notation L := list_source.
  Notation E := (list entry).

  (** Skip the start token of a collection. *)
  Definition behind (f : bool) (ts : list maybe_token) (Q : list maybe_token -> Prop) : Prop :=
    if f then exists t ts', ts = t :: ts' /\ Q ts' else Q ts.

  (** What a state on the stack reads, before the state below continues. *)
  Definition tseg (known : str -> Prop) (s : state) (ts : list maybe_token)
    (w : list event_data) (rest : list maybe_token) : Prop :=
    match s with
    | StDocumentContent =>
        (ahead_in ts document_markers /\ w = [] /\ rest = ts) \/
        (ahead_not ts document_markers /\ t_node known true Root ts w rest)
    | StBlockNode => t_node known true Root ts w rest
    | StFlowNode => t_node known false Root ts w rest
    | StBlockSequenceEntry f => behind f ts (fun ts => t_block_entries known ts w rest)
    | StBlockMappingKey f => behind f ts (fun ts => t_block_pairs known ts w rest)
    | StBlockMappingValue =>
        exists v ts1 w', w = v ++ w' /\
          t_value known [MKey; MValue; MBlockEnd] true ts v ts1 /\
          t_block_pairs known ts1 w' rest
    | StFlowSequenceEntry f => behind f ts (fun ts => t_flow_entries known f ts w rest)
    | StFlowSequenceMappingKey =>
        exists k ts1 v ts2 w', w = k ++ v ++ EvMappingEnd :: w' /\
          t_slot known [MValue; MFlowEntry; MFlowSequenceEnd] false Key ts k ts1 /\
          t_value known [MFlowEntry; MFlowSequenceEnd] false ts1 v ts2 /\
          t_flow_entries known false ts2 w' rest
    | StFlowSequenceMappingValue =>
        exists v ts2 w', w = v ++ EvMappingEnd :: w' /\
          t_value known [MFlowEntry; MFlowSequenceEnd] false ts v ts2 /\
          t_flow_entries known false ts2 w' rest
    | StFlowSequenceMappingEnd =>
        exists w', w = EvMappingEnd :: w' /\ t_flow_entries known false ts w' rest
    | StFlowMappingKey f => behind f ts (fun ts => t_flow_pairs known f ts w rest)
    | StFlowMappingValue true =>
        exists w', w = absent Value :: w' /\ t_flow_pairs known false ts w' rest
    | StFlowMappingValue false =>
        exists v ts2 w', w = v ++ w' /\
          t_value known [MFlowEntry; MFlowMappingEnd] false ts v ts2 /\
          t_flow_pairs known false ts2 w' rest
    | _ => False
    end.

  Definition tfinal (s : state) (ts : list maybe_token) (w : list event_data) : Prop :=
    match s with
    | StStreamStart => exists rest, t_stream ts w rest
    | StDocumentStart true f => exists rest, t_documents true f ts w rest
    | StDocumentStart false f =>
        ahead_not ts [MDocumentEnd] -> exists rest, t_documents false f ts w rest
    | StDocumentEnd => exists rest, t_document_end ts w rest
    | StStreamEnd => exists rest, ts = Tok TStreamEnd :: rest /\ w = [EvStreamEnd]
    | _ => False
    end.

  Fixpoint tl_stack (known : str -> Prop) (s : state) (st : list state)
    (ts : list maybe_token) (w : list event_data) : Prop :=
    match st with
    | [] => tfinal s ts w
    | s' :: r => exists u v rest,
        w = u ++ v /\ tseg known s ts u rest /\ tl_stack known s' r rest v
    end.

  Definition tlang (p : parser) (ts : list maybe_token) (w : list event_data) : Prop :=
    if ps_done p then w = []
    else forall known, knows (ps_dirs p) known -> tl_stack known (ps_top p) (ps_stack p) ts w.

  Variable D : directives.
  Variable known : str -> Prop.
  Hypothesis K : knows D known.
  Notation mk s st := (mkParser s st D false).

  Lemma tlang_mk s st ts w : tlang (mk s st) ts w -> tl_stack known s st ts w.
  Proof. intros H. exact (H known K). Qed.

  Lemma validate_inv a g k scalar n :
    validate_tag (d_tags D) (mkNode a g k) scalar = Ok n ->
    exists g', n = mkNode a g' k /\ t_tag known scalar g g'.
  Proof.
    unfold validate_tag; cbn [n_tag n_anchor n_kind].
    destruct g as [[h s]|]; [|intros [= <-]; eexists; split; [reflexivity|constructor]].
    destruct (scalar && _) eqn:B.
    - apply andb_prop in B; destruct B as [-> B]. apply non_specific_dec in B.
      intros [= <-]. eexists; split; [reflexivity|]. constructor; auto.
    - destruct (tag_get _ _) eqn:T; [|discriminate]. intros [= <-].
      eexists; split; [reflexivity|]. constructor.
      + intros [-> H]. apply non_specific_dec in H. rewrite H in B. discriminate.
      + apply K. rewrite T. discriminate.
  Qed.

  Lemma ahead_mk x l : ahead (wraps (x :: l)) = Some (e_marker x).
  Proof. reflexivity. Qed.

  Lemma properties_inv m p x l p' l' s a g :
    properties E L m (e_marker x) p (x :: l) = (p', l', Ok (s, a, g)) -> l' <> [] ->
    p' = p /\ t_props (wraps (x :: l)) a g (wraps l').
  Proof.
    intros H N. destruct x as [w mx].
    assert (A : forall y t, l = y :: t -> forall m', e_marker y <> m' -> ahead_not (wraps l) [m']).
    { intros y t -> m' Hm. exists (e_marker y). split; [reflexivity|]. cbn; intuition congruence. }
    destruct w as [[]|]; try (
      injection H as <- <- <- <- <-; split; [reflexivity|]; apply tp_none;
      eexists; split; [reflexivity|cbn; intuition discriminate]).
    - (* anchor first *)
      cbn in H. unfold fetch_tag, peek_opt, pbind in H. cbn in H.
      destruct l as [|y l]; [cbn in H; injection H as <- <- _ _ _; congruence|]. cbn in H.
      destruct (marker_eqb (maybe_marker (e_wrap y)) MTag) eqn:M.
      + destruct y as [[[]|] my]; try discriminate. cbn in H.
        injection H as <- <- <- <- <-. split; [reflexivity|]. apply tp_anchor_tag.
      + assert (H' : (p, y :: l, Ok (mx, Some name, None)) = (p', l', @Ok parse_error _ (s, a, g))).
        { unfold e_marker in *; destruct (maybe_marker (e_wrap y)); try exact H. discriminate. }
        injection H' as <- <- <- <- <-. split; [reflexivity|]. apply tp_anchor.
        apply (A y l eq_refl). intros Q. unfold e_marker in Q. rewrite Q in M. discriminate.
    - cbn in H. unfold fetch_anchor, peek_opt, pbind in H. cbn in H.
      destruct l as [|y l]; [cbn in H; injection H as <- <- _ _ _; congruence|]. cbn in H.
      destruct (marker_eqb (maybe_marker (e_wrap y)) MAnchor) eqn:M.
      + destruct y as [[[]|] my]; try discriminate. cbn in H.
        injection H as <- <- <- <- <-. split; [reflexivity|]. apply tp_tag_anchor.
      + assert (H' : (p, y :: l, Ok (mx, None, Some (handle, suffix))) = (p', l', @Ok parse_error _ (s, a, g))).
        { unfold e_marker in *; destruct (maybe_marker (e_wrap y)); try exact H. discriminate. }
        injection H' as <- <- <- <- <-. split; [reflexivity|]. apply tp_tag.
        apply (A y l eq_refl). intros Q. unfold e_marker in Q. rewrite Q in M. discriminate.
  Qed.

  Lemma checked_inv x e a g k scalar (mkd : node -> event_data) p l p' l' ev :
    ps_dirs p = D ->
    checked E x e (mkNode a g k) scalar mkd p l = (p', l', Ok (Some ev)) ->
    p' = p /\ l' = l /\ exists g', ev_data ev = mkd (mkNode a g' k) /\ t_tag known scalar g g'.
  Proof.
    intros HD H. unfold checked in H. rewrite HD in H.
    destruct (validate_tag _ _ _) as [n| | |] eqn:V; try discriminate.
    injection H as <- <- <-. destruct (validate_inv _ _ _ _ _ V) as (g' & -> & T).
    split; [reflexivity|]. split; [reflexivity|]. exists g'; split; [reflexivity|exact T].
  Qed.

  Definition node_s (b : bool) (k : node_kind) (s : state) (st : list state) (l : E)
    (p' : parser) (l' : E) (e : event) : Prop :=
    forall w, tlang p' (wraps l') w ->
    exists u rest v, ev_data e :: w = u ++ v /\ t_node known b k (wraps l) u rest /\
                     tl_stack known s st rest v.

  Lemma node_empty_sound b k top s st l a g s0 m x l1 p' l' e :
    t_props (wraps l) a g (wraps (x :: l1)) ->
    ~ In (e_marker x) (starters b) ->
    node_empty E s0 m (mkNode a g k) (mk top (s :: st)) (x :: l1) = (p', l', Ok (Some e)) ->
    node_s b k s st l p' l' e.
  Proof.
    intros Hp N H w Hw. unfold node_empty in H; cbn [n_anchor n_tag] in H.
    assert (C : (a <> None \/ g <> None) /\
      checked E s0 m (mkNode a g k) true (fun n => EvScalar n empty_scalar_like) (mk s st) (x :: l1)
      = (p', l', Ok (Some e))).
    { destruct a, g; try (split; [|exact H]; auto; (left; discriminate) || (right; discriminate)).
      discriminate. }
    destruct C as [C H']. apply checked_inv in H'; [|reflexivity].
    destruct H' as (-> & -> & g' & He & T). rewrite He.
    exists [EvScalar (mkNode a g' k) empty_scalar_like], (wraps (x :: l1)), w.
    repeat split; [|apply tlang_mk; exact Hw].
    eapply tn_empty; try eassumption. exists (e_marker x). split; [reflexivity|exact N].
  Qed.

  Lemma node_sound b k top s st l p' l' e :
    parse_node E L b k (mk top (s :: st)) l = (p', l', Ok (Some e)) -> node_s b k s st l p' l' e.
  Proof.
    intros H. destruct l as [|x l]; [discriminate|].
    assert (C : (exists n m, x = mkEntry (Tok (TAlias n)) m) \/
                node_content E L b k (e_read x) (e_marker x) (mk top (s :: st)) (x :: l)
                = (p', l', Ok (Some e))).
    { destruct x as [[[]|d] m]; (left; eauto; fail) || (right; exact H). }
    destruct C as [(n & m & ->)|C].
    { intros w Hw. cbn in H. injection H as <- <- <-. exists [EvAlias n], (wraps l), w.
      repeat split; [constructor|]. apply tlang_mk; exact Hw. }
    clear H. unfold node_content, pbind at 1 in C.
    destruct (properties E L (e_read x) (e_marker x) (mk top (s :: st)) (x :: l))
      as [[p1 l1] [[[s0 a] g]| | |]] eqn:Hp; try discriminate.
    destruct l1 as [|y l1]; [unfold pbind, peek, peek_opt, pbind in C; cbn in C; discriminate|].
    apply properties_inv in Hp; [|discriminate]. destruct Hp as [-> Hp].
    unfold pbind at 1, peek, peek_opt, pbind at 1 in C. cbn [L ts_look map_err hd_error pret] in C.
    unfold pret in C. cbn -[node_variant] in C.
    assert (R : forall t s1 mkd,
      y = mkEntry (Tok t) (e_read y) ->
      checked E s0 (e_read y) (mkNode a g k) false mkd (mk s1 (s :: st)) (y :: l1)
        = (p', l', Ok (Some e)) ->
      (forall g' evs rest, t_tag known false g g' -> tseg known s1 (wraps (y :: l1)) evs rest ->
         t_node known b k (wraps (x :: l)) (mkd (mkNode a g' k) :: evs) rest) ->
      node_s b k s st (x :: l) p' l' e).
    { intros t s1 mkd Hy Hc Hn w Hw. apply checked_inv in Hc; [|reflexivity].
      destruct Hc as (-> & -> & g' & -> & T). apply tlang_mk in Hw.
      destruct Hw as (u & v & rest & -> & Hs & Hv).
      exists (mkd (mkNode a g' k) :: u), rest, v. repeat split; auto. }
    destruct y as [t m]. destruct t as [t|d].
    - destruct t;
        try (eapply node_empty_sound; [exact Hp|destruct b; cbn; intuition discriminate|exact C]).
      + destruct b; cbn [e_marker e_wrap maybe_marker token_marker node_variant] in C.
        * eapply (R TBlockSequenceStart (StBlockSequenceEntry true)); [reflexivity|exact C|].
          intros g' evs rest Ht (t & ts & [= <- <-] & Hs). eapply tn_block_sequence; eassumption.
        * eapply node_empty_sound; [exact Hp|cbn; intuition discriminate|exact C].
      + destruct b; cbn [e_marker e_wrap maybe_marker token_marker node_variant] in C.
        * eapply (R TBlockMappingStart (StBlockMappingKey true)); [reflexivity|exact C|].
          intros g' evs rest Ht (t & ts & [= <- <-] & Hs). eapply tn_block_mapping; eassumption.
        * eapply node_empty_sound; [exact Hp|cbn; intuition discriminate|exact C].
      + eapply (R TFlowSequenceStart (StFlowSequenceEntry true)); [reflexivity|exact C|].
        intros g' evs rest Ht (t & ts & [= <- <-] & Hs). eapply tn_flow_sequence; eassumption.
      + eapply (R TFlowMappingStart (StFlowMappingKey true)); [reflexivity|exact C|].
        intros g' evs rest Ht (t & ts & [= <- <-] & Hs). eapply tn_flow_mapping; eassumption.
      + intros w Hw.
        assert (C' : checked E s0 m (mkNode a g k) true (fun n => EvScalar n (Eager text style))
                       (mk s st) l1 = (p', l', Ok (Some e))) by exact C.
        apply checked_inv in C'; [|reflexivity]. destruct C' as (-> & -> & g' & -> & T).
        eexists [_], (wraps l1), w. repeat split; [|apply tlang_mk; exact Hw].
        eapply tn_scalar; eassumption.
    - intros w Hw.
      assert (C' : checked E s0 m (mkNode a g k) true (fun n => EvScalar n (LazyS d))
                     (mk s st) l1 = (p', l', Ok (Some e))) by exact C.
      apply checked_inv in C'; [|reflexivity]. destruct C' as (-> & -> & g' & -> & T).
      eexists [_], (wraps l1), w. repeat split; [|apply tlang_mk; exact Hw].
      eapply tn_lazy; eassumption.
  Qed.

  (** ** Slots and values *)
  Lemma slot_sound stop b k nx st l p' l' e w :
    ((ahead_in (wraps l) stop /\ p' = mk nx st /\ l' = l /\ ev_data e = absent k) \/
     (ahead_not (wraps l) stop /\
      exists top, parse_node E L b k (mk top (nx :: st)) l = (p', l', Ok (Some e)))) ->
    tlang p' (wraps l') w ->
    exists u rest v, ev_data e :: w = u ++ v /\
      t_slot known stop b k (wraps l) u rest /\ tl_stack known nx st rest v.
  Proof.
    intros [(A & -> & -> & ->)|(A & top & H)] Hw.
    - eexists [_], _, w. repeat split; [|apply tlang_mk; exact Hw]. constructor; exact A.
    - destruct (node_sound _ _ _ _ _ _ _ _ _ H w Hw) as (u & rest & v & Hu & Hn & Hv).
      exists u, rest, v. repeat split; try assumption. constructor; assumption.
  Qed.

  Lemma value_sound stop b nx st l p' l' e w :
    ((ahead_not (wraps l) [MValue] /\ p' = mk nx st /\ l' = l /\ ev_data e = absent Value) \/
     (exists m l1, l = mkEntry (Tok TValue) m :: l1 /\
      ((ahead_in (wraps l1) stop /\ p' = mk nx st /\ l' = l1 /\ ev_data e = absent Value) \/
       (ahead_not (wraps l1) stop /\
        exists top, parse_node E L b Value (mk top (nx :: st)) l1 = (p', l', Ok (Some e)))))) ->
    tlang p' (wraps l') w ->
    exists u rest v, ev_data e :: w = u ++ v /\
      t_value known stop b (wraps l) u rest /\ tl_stack known nx st rest v.
  Proof.
    intros [(A & -> & -> & ->)|(m & l1 & -> & H)] Hw.
    - eexists [_], _, w. repeat split; [|apply tlang_mk; exact Hw]. constructor; exact A.
    - destruct (slot_sound _ _ _ _ _ _ _ _ _ _ H Hw) as (u & rest & v & Hu & Hn & Hv).
      exists u, rest, v. repeat split; try assumption. cbn. constructor; assumption.
  Qed.

  Ltac red_in H :=
    unfold block_sequence_entry, block_mapping_key, block_mapping_value,
      flow_sequence_entry, flow_sequence_entry_mapping_key, flow_sequence_entry_mapping_value,
      flow_sequence_entry_mapping_end, flow_mapping_key, flow_mapping_value, fetch_end,
      debug_assert, pbind, pret, pupd, pop, peek, peek_opt, empty_scalar, deliver in H;
    cbn -[parse_node] in H.

  Lemma ahead_in_mk x l ms : In (e_marker x) ms -> ahead_in (wraps (x :: l)) ms.
  Proof. intros H; exists (e_marker x); split; [reflexivity|exact H]. Qed.
  Lemma ahead_not_mk x l ms : ~ In (e_marker x) ms -> ahead_not (wraps (x :: l)) ms.
  Proof. intros H; exists (e_marker x); split; [reflexivity|exact H]. Qed.

  (** The premise of [slot_sound] from a decided transition. *)
  Ltac slot_premise x H :=
    unfold e_marker in *; destruct (maybe_marker (e_wrap x)) eqn:?M; try discriminate H;
    first
      [ left; injection H as <- <- <-; repeat split; apply ahead_in_mk; unfold e_marker;
        rewrite M; cbn; tauto
      | right; split;
        [apply ahead_not_mk; unfold e_marker; rewrite M; cbn; intuition discriminate
        |eexists; exact H] ].

  Definition trans_s (s : state) (st : list state) (l : E) (p' : parser) (l' : E) (e : event) : Prop :=
    forall w, tlang p' (wraps l') w -> tl_stack known s st (wraps l) (ev_data e :: w).

  Lemma block_entries_sound s' r l p' l' e w :
    (exists x l1, l = x :: l1 /\
      match e_marker x with
      | MBlockEntry =>
          exists y l2, l1 = y :: l2 /\
          ((ahead_in (wraps l1) [MBlockEntry; MBlockEnd] /\
            p' = mk (StBlockSequenceEntry false) (s' :: r) /\ l' = l1 /\ ev_data e = absent Entry) \/
           (ahead_not (wraps l1) [MBlockEntry; MBlockEnd] /\
            exists top, parse_node E L true Entry (mk top (StBlockSequenceEntry false :: s' :: r)) l1
            = (p', l', Ok (Some e))))
      | MBlockEnd => p' = mk s' r /\ l' = l1 /\ ev_data e = EvSequenceEnd
      | _ => False
      end) ->
    tlang p' (wraps l') w ->
    exists u v rest, ev_data e :: w = u ++ v /\ t_block_entries known (wraps l) u rest /\
      tl_stack known s' r rest v.
  Proof.
    intros (x & l1 & -> & H) Hw. destruct x as [[[]|d] m]; cbn [e_marker e_wrap maybe_marker token_marker] in H;
      try (exfalso; exact H).
    - destruct H as (-> & -> & ->). exists [EvSequenceEnd], w, (wraps l1).
      repeat split; [constructor|apply tlang_mk; exact Hw].
    - destruct H as (y & l2 & -> & H).
      destruct (slot_sound [MBlockEntry; MBlockEnd] true Entry (StBlockSequenceEntry false) (s' :: r)
                  (y :: l2) p' l' e w) as (u & rest & v & -> & Hs & Hv); [exact H|exact Hw|].
      destruct Hv as (u2 & v2 & rest2 & -> & H2 & Hv2).
      exists (u ++ u2), v2, rest2. repeat split; [apply app_assoc| |exact Hv2].
      cbn. econstructor; eassumption.
  Qed.

  (** Skip the start token: the rest of the handler runs on the tail. *)
  Ltac skip_front l H :=
    destruct l as [|?x0 l]; [discriminate H|]; red_in H;
    match type of H with context [debug && ?b] => destruct (debug && b) end;
    [discriminate H|]; cbn -[parse_node] in H.

  Lemma block_sequence_sound f s' r l p' l' e :
    block_sequence_entry E L debug f (mk (StBlockSequenceEntry f) (s' :: r)) l
      = (p', l', Ok (Some e)) ->
    trans_s (StBlockSequenceEntry f) (s' :: r) l p' l' e.
  Proof.
    intros H w Hw. cbn [tl_stack].
    destruct f; [skip_front l H|];
      (destruct (block_entries_sound s' r l p' l' e w) as (u & v & rest & Hu & Hq & Hv);
       [|exact Hw|exists u, v, rest; repeat split; [exact Hu| |exact Hv]; cbn [tseg behind];
                  cbn; eauto]);
      (destruct l as [|x l]; [discriminate H|]; exists x, l; split; [reflexivity|]; red_in H;
       unfold e_marker in *; destruct (maybe_marker (e_wrap x)) eqn:M0; try discriminate H;
       [injection H as <- <- <-; auto|];
       destruct l as [|y l]; [discriminate H|]; exists y, l; split; [reflexivity|];
       red_in H; slot_premise y H).
  Qed.

  Lemma block_pairs_sound s' r l p' l' e w :
    (exists x l1, l = x :: l1 /\
      match e_marker x with
      | MKey =>
          (ahead_in (wraps l1) [MKey; MValue; MBlockEnd] /\
           p' = mk StBlockMappingValue (s' :: r) /\ l' = l1 /\ ev_data e = absent Key) \/
          (ahead_not (wraps l1) [MKey; MValue; MBlockEnd] /\
           exists top, parse_node E L true Key (mk top (StBlockMappingValue :: s' :: r)) l1
           = (p', l', Ok (Some e)))
      | MBlockEnd => p' = mk s' r /\ l' = l1 /\ ev_data e = EvMappingEnd
      | _ => False
      end) ->
    tlang p' (wraps l') w ->
    exists u v rest, ev_data e :: w = u ++ v /\ t_block_pairs known (wraps l) u rest /\
      tl_stack known s' r rest v.
  Proof.
    intros (x & l1 & -> & H) Hw. destruct x as [[[]|d] m]; cbn [e_marker e_wrap maybe_marker token_marker] in H;
      try (exfalso; exact H).
    - destruct H as (-> & -> & ->). exists [EvMappingEnd], w, (wraps l1).
      repeat split; [constructor|apply tlang_mk; exact Hw].
    - destruct (slot_sound _ _ _ _ _ _ _ _ _ _ H Hw) as (u & rest & v & -> & Hs & Hv).
      destruct Hv as (u2 & v2 & rest2 & -> & (v3 & ts3 & w3 & -> & H2 & H3) & Hv2).
      exists (u ++ v3 ++ w3), v2, rest2. repeat split; [rewrite <- !app_assoc; reflexivity| |exact Hv2].
      cbn. econstructor; eassumption.
  Qed.

  Lemma block_key_sound f s' r l p' l' e :
    block_mapping_key E L debug f (mk (StBlockMappingKey f) (s' :: r)) l
      = (p', l', Ok (Some e)) ->
    trans_s (StBlockMappingKey f) (s' :: r) l p' l' e.
  Proof.
    intros H w Hw. cbn [tl_stack].
    destruct f; [skip_front l H|];
      (destruct (block_pairs_sound s' r l p' l' e w) as (u & v & rest & Hu & Hq & Hv);
       [|exact Hw|exists u, v, rest; repeat split; [exact Hu| |exact Hv]; cbn [tseg behind];
                  cbn; eauto]);
      (destruct l as [|x l]; [discriminate H|]; exists x, l; split; [reflexivity|]; red_in H;
       unfold e_marker in *; destruct (maybe_marker (e_wrap x)) eqn:M0; try discriminate H;
       [injection H as <- <- <-; auto|];
       destruct l as [|y l]; [discriminate H|];
       red_in H; slot_premise y H).
  Qed.

  (** The premise of [value_sound]. *)
  Ltac value_premise x l H :=
    unfold e_marker in *; destruct (maybe_marker (e_wrap x)) eqn:?M0; try discriminate H;
    first
      [ left; injection H as <- <- <-; repeat split; apply ahead_not_mk; unfold e_marker;
        rewrite M0; cbn; intuition discriminate
      | right; destruct x as [[[]|] ?m]; try discriminate M0;
        eexists _, l; split; [reflexivity|];
        destruct l as [|?y l]; [discriminate H|]; red_in H;
        match goal with y : entry |- _ => slot_premise y H end ].

  Lemma block_value_sound s' r l p' l' e :
    block_mapping_value E L (mk StBlockMappingValue (s' :: r)) l = (p', l', Ok (Some e)) ->
    trans_s StBlockMappingValue (s' :: r) l p' l' e.
  Proof.
    intros H w Hw. cbn [tl_stack tseg].
    destruct (value_sound [MKey; MValue; MBlockEnd] true (StBlockMappingKey false) (s' :: r)
                l p' l' e w) as (u & rest & v & Hu & Hq & Hv); [|exact Hw|].
    - destruct l as [|x l]; [discriminate H|]. red_in H. value_premise x l H.
    - destruct Hv as (u2 & v2 & rest2 & -> & H2 & Hv2).
      exists (u ++ u2), v2, rest2. rewrite <- app_assoc. repeat split; [exact Hu| |exact Hv2].
      exists u, rest, u2. auto.
  Qed.

  (** ** Flow collections *)
  Lemma flow_pair_key_sound s' r l p' l' e :
    flow_sequence_entry_mapping_key E L (mk StFlowSequenceMappingKey (s' :: r)) l
      = (p', l', Ok (Some e)) ->
    trans_s StFlowSequenceMappingKey (s' :: r) l p' l' e.
  Proof.
    intros H w Hw. cbn [tl_stack tseg].
    destruct (slot_sound [MValue; MFlowEntry; MFlowSequenceEnd] false Key
                StFlowSequenceMappingValue (s' :: r)
                l p' l' e w) as (u & rest & v & Hu & Hq & Hv); [|exact Hw|].
    - destruct l as [|x l]; [discriminate H|]. red_in H. slot_premise x H.
    - destruct Hv as (u2 & v2 & rest2 & -> & (v3 & ts3 & w3 & -> & H2 & H3) & Hv2).
      exists (u ++ v3 ++ EvMappingEnd :: w3), v2, rest2. rewrite <- !app_assoc.
      cbn [app]. rewrite <- app_assoc in Hu. repeat split; [exact Hu| |exact Hv2].
      exists u, rest, v3, ts3, w3. auto.
  Qed.

  Lemma flow_pair_value_sound s' r l p' l' e :
    flow_sequence_entry_mapping_value E L (mk StFlowSequenceMappingValue (s' :: r)) l
      = (p', l', Ok (Some e)) ->
    trans_s StFlowSequenceMappingValue (s' :: r) l p' l' e.
  Proof.
    intros H w Hw. cbn [tl_stack tseg].
    destruct (value_sound [MFlowEntry; MFlowSequenceEnd] false
                StFlowSequenceMappingEnd (s' :: r)
                l p' l' e w) as (u & rest & v & Hu & Hq & Hv); [|exact Hw|].
    - destruct l as [|x l]; [discriminate H|]. red_in H. value_premise x l H.
    - destruct Hv as (u2 & v2 & rest2 & -> & (w3 & -> & H3) & Hv2).
      exists (u ++ EvMappingEnd :: w3), v2, rest2. rewrite <- !app_assoc.
      repeat split; [exact Hu| |exact Hv2].
      exists u, rest, w3. auto.
  Qed.

  Lemma flow_pair_end_sound s' r l p' l' e :
    flow_sequence_entry_mapping_end E L debug (mk StFlowSequenceMappingEnd (s' :: r)) l
      = (p', l', Ok (Some e)) ->
    trans_s StFlowSequenceMappingEnd (s' :: r) l p' l' e.
  Proof.
    intros H w Hw. cbn [tl_stack tseg].
    destruct l as [|x l]; [discriminate H|]. red_in H.
    match type of H with context [debug && ?b] => destruct (debug && b) end; [discriminate H|].
    cbn in H. injection H as <- <- <-. apply tlang_mk in Hw. cbn [tl_stack tseg behind] in Hw.
    destruct Hw as (u & v & rest & -> & Hs & Hv).
    exists (EvMappingEnd :: u), v, rest. repeat split; [|exact Hv]. eauto.
  Qed.

  (** A flow entry after its separator. *)
  Lemma flow_entry_sound s' r l p' l' e w :
    (exists x l1, l = x :: l1 /\
       ((e_marker x = MKey /\ p' = mk StFlowSequenceMappingKey (s' :: r) /\ l' = l1 /\
         ev_data e = EvMappingStart (mkNode None None Entry)) \/
        (ahead_not (wraps l) [MKey; MFlowSequenceEnd] /\
         exists top, parse_node E L false Entry (mk top (StFlowSequenceEntry false :: s' :: r)) l
           = (p', l', Ok (Some e))))) ->
    tlang p' (wraps l') w ->
    exists i u v ts1 rest, ev_data e :: w = (i ++ u) ++ v /\
      t_flow_entry known (wraps l) i ts1 /\ t_flow_entries known false ts1 u rest /\
      tl_stack known s' r rest v.
  Proof.
    intros (x & l1 & -> & [(M & -> & -> & ->)|(A & top & H)]) Hw.
    - apply tlang_mk in Hw. cbn [tl_stack tseg] in Hw.
      destruct Hw as (u & v & rest & -> & (k & ts1 & v1 & ts2 & w' & -> & H1 & H2 & H3) & Hv).
      exists (EvMappingStart (mkNode None None Entry) :: k ++ v1 ++ [EvMappingEnd]), w', v, ts2, rest.
      repeat split; [cbn [app]; rewrite <- !app_assoc; reflexivity| |exact H3|exact Hv].
      destruct x as [[[]|d] m]; try discriminate M. cbn. econstructor; eassumption.
    - destruct (node_sound _ _ _ _ _ _ _ _ _ H w Hw) as (u & rest & v & Hu & Hn & Hv).
      destruct Hv as (u2 & v2 & rest2 & -> & H2 & Hv2).
      exists u, u2, v2, rest, rest2. rewrite <- app_assoc. repeat split; try assumption.
      constructor; assumption.
  Qed.

  Lemma flow_sequence_sound f s' r l p' l' e :
    flow_sequence_entry E L debug f (mk (StFlowSequenceEntry f) (s' :: r)) l
      = (p', l', Ok (Some e)) ->
    trans_s (StFlowSequenceEntry f) (s' :: r) l p' l' e.
  Proof.
    intros H w Hw. cbn [tl_stack].
    assert (En : forall m l1, p' = mk s' r -> l' = l1 -> ev_data e = EvSequenceEnd -> forall g,
      exists u v rest, ev_data e :: w = u ++ v /\
        t_flow_entries known g (wraps (mkEntry (Tok TFlowSequenceEnd) m :: l1)) u rest /\
        tl_stack known s' r rest v).
    { intros m l1 -> -> -> g. exists [EvSequenceEnd], w, (wraps l1).
      repeat split; [constructor|apply tlang_mk; exact Hw]. }
    destruct f.
    - skip_front l H. destruct l as [|x l]; [discriminate H|]. red_in H.
      assert (C : (exists m, x = mkEntry (Tok TFlowSequenceEnd) m /\ p' = mk s' r /\ l' = l /\ ev_data e = EvSequenceEnd) \/
        ((e_marker x = MKey /\ p' = mk StFlowSequenceMappingKey (s' :: r) /\ l' = l /\
         ev_data e = EvMappingStart (mkNode None None Entry)) \/
        (ahead_not (wraps (x :: l)) [MKey; MFlowSequenceEnd] /\
         exists top, parse_node E L false Entry (mk top (StFlowSequenceEntry false :: s' :: r)) (x :: l)
           = (p', l', Ok (Some e))))).
      { unfold e_marker in *. destruct (maybe_marker (e_wrap x)) eqn:M; try discriminate H;
        cbn -[parse_node] in H; rewrite ?M in H; cbn -[parse_node] in H;
        first
          [ left; destruct x as [[[]|] m]; try discriminate M; injection H as <- <- <-; eauto; fail
          | right; left; injection H as <- <- <-; repeat split; fail
          | right; right; split;
            [apply ahead_not_mk; unfold e_marker; rewrite M; cbn; intuition discriminate
            |eexists; exact H] ]. }
      destruct C as [(m & -> & C1 & C2 & C3)|C].
      + destruct (En m l C1 C2 C3 true) as (u & v & rest & Hu & Hq & Hv).
        exists u, v, rest. repeat split; [exact Hu| |exact Hv]. cbn [tseg behind]. cbn. eauto.
      + destruct (flow_entry_sound s' r (x :: l) p' l' e w ltac:(exists x, l; split; [reflexivity|exact C]) Hw)
          as (i & u & v & ts1 & rest & Hu & H1 & H2 & Hv).
        exists (i ++ u), v, rest. repeat split; [exact Hu| |exact Hv].
        cbn [tseg behind]. eexists _, _. split; [reflexivity|]. econstructor; eassumption.
    - destruct l as [|x l]; [discriminate H|]. red_in H.
      unfold e_marker in H. destruct x as [[[]|d] m]; cbn -[parse_node] in H; try discriminate H.
      + injection H as E1 E2 E3.
        destruct (En m l (eq_sym E1) (eq_sym E2) ltac:(rewrite <- E3; reflexivity) false)
          as (u & v & rest & Hu & Hq & Hv).
        exists u, v, rest. auto.
      + destruct l as [|x l]; [discriminate H|]. red_in H.
        assert (C : (exists m, x = mkEntry (Tok TFlowSequenceEnd) m /\ p' = mk s' r /\ l' = l /\ ev_data e = EvSequenceEnd) \/
          ((e_marker x = MKey /\ p' = mk StFlowSequenceMappingKey (s' :: r) /\ l' = l /\
           ev_data e = EvMappingStart (mkNode None None Entry)) \/
          (ahead_not (wraps (x :: l)) [MKey; MFlowSequenceEnd] /\
           exists top, parse_node E L false Entry (mk top (StFlowSequenceEntry false :: s' :: r)) (x :: l)
             = (p', l', Ok (Some e))))).
        { unfold e_marker in *. destruct (maybe_marker (e_wrap x)) eqn:M; try discriminate H;
          cbn -[parse_node] in H; rewrite ?M in H; cbn -[parse_node] in H;
          first
            [ left; destruct x as [[[]|] m']; try discriminate M; injection H as <- <- <-; eauto; fail
            | right; left; injection H as <- <- <-; repeat split; fail
            | right; right; split;
              [apply ahead_not_mk; unfold e_marker; rewrite M; cbn; intuition discriminate
              |eexists; exact H] ]. }
        destruct C as [(m' & -> & C1 & C2 & C3)|C].
        * exists [EvSequenceEnd], w, (wraps l). rewrite C3. repeat split; [cbn; constructor|].
          subst. apply tlang_mk; exact Hw.
        * destruct (flow_entry_sound s' r (x :: l) p' l' e w ltac:(exists x, l; split; [reflexivity|exact C]) Hw)
            as (i & u & v & ts1 & rest & Hu & H1 & H2 & Hv).
          exists (i ++ u), v, rest. repeat split; [exact Hu| |exact Hv].
          cbn [tseg behind]. cbn. econstructor; eassumption.
  Qed.

  Lemma flow_pairs_not_nil ts u rest : t_flow_pairs known false ts u rest -> ts <> [].
  Proof. intros H. inversion H; discriminate. Qed.

  (** A flow mapping's next pair, after its separator. *)
  Definition pair_case s' r l p' l' e : Prop :=
    (exists m l1, l = mkEntry (Tok TKey) m :: l1 /\
       ((ahead_in (wraps l1) [MValue; MFlowEntry; MFlowMappingEnd] /\
         p' = mk (StFlowMappingValue false) (s' :: r) /\ l' = l1 /\ ev_data e = absent Key) \/
        (ahead_not (wraps l1) [MValue; MFlowEntry; MFlowMappingEnd] /\
         exists top, parse_node E L false Key
           (mk top (StFlowMappingValue false :: s' :: r)) l1 = (p', l', Ok (Some e))))) \/
    (ahead_not (wraps l) [MKey; MFlowMappingEnd] /\
     exists top, parse_node E L false Key (mk top (StFlowMappingValue true :: s' :: r)) l
       = (p', l', Ok (Some e))).

  Lemma flow_pair_sound s' r l p' l' e w :
    pair_case s' r l p' l' e ->
    tlang p' (wraps l') w ->
    exists i u v ts1 rest, ev_data e :: w = (i ++ u) ++ v /\
      t_flow_pair known (wraps l) i ts1 /\ t_flow_pairs known false ts1 u rest /\
      tl_stack known s' r rest v.
  Proof.
    intros [(m & l1 & -> & H)|(A & top & H)] Hw.
    - destruct (slot_sound _ _ _ _ _ _ _ _ _ _ H Hw) as (u & rest & v & -> & Hs & Hv).
      destruct Hv as (u2 & v2 & rest2 & -> & (v3 & ts3 & w3 & -> & H2 & H3) & Hv2).
      exists (u ++ v3), w3, v2, ts3, rest2.
      repeat split; [rewrite <- !app_assoc; reflexivity| |exact H3|exact Hv2].
      cbn. econstructor; eassumption.
    - destruct (node_sound _ _ _ _ _ _ _ _ _ H w Hw) as (u & rest & v & Hu & Hn & Hv).
      destruct Hv as (u2 & v2 & rest2 & -> & (w3 & -> & H2) & Hv2).
      exists (u ++ [absent Value]), w3, v2, rest, rest2. rewrite <- !app_assoc.
      repeat split; try assumption.
      constructor; try assumption. eapply flow_pairs_not_nil; eassumption.
  Qed.

  Ltac pair_choice x l H :=
    unfold e_marker in *; destruct (maybe_marker (e_wrap x)) eqn:?M9; try discriminate H;
    cbn -[parse_node] in H; rewrite ?M9 in H; cbn -[parse_node] in H;
    first
      [ left; destruct x as [[[]|] ?m]; try discriminate M9; injection H as <- <- <-; eauto; fail
      | right; left; destruct x as [[[]|] ?m]; try discriminate M9;
        eexists _, l; split; [reflexivity|];
        destruct l as [|?y l]; [discriminate H|]; red_in H;
        match goal with y : entry |- _ => slot_premise y H end; fail
      | right; right; split;
        [apply ahead_not_mk; unfold e_marker; rewrite M9; cbn; intuition discriminate
        |eexists; exact H] ].

  Lemma flow_mapping_sound f s' r l p' l' e :
    flow_mapping_key E L debug f (mk (StFlowMappingKey f) (s' :: r)) l
      = (p', l', Ok (Some e)) ->
    trans_s (StFlowMappingKey f) (s' :: r) l p' l' e.
  Proof.
    intros H w Hw. cbn [tl_stack].
    destruct f.
    - skip_front l H. destruct l as [|x l]; [discriminate H|]. red_in H.
      assert (C : (exists m, x = mkEntry (Tok TFlowMappingEnd) m /\ p' = mk s' r /\ l' = l /\ ev_data e = EvMappingEnd) \/
        pair_case s' r (x :: l) p' l' e).
      { unfold pair_case. pair_choice x l H. }
      destruct C as [(m & -> & -> & -> & ->)|C].
      + exists [EvMappingEnd], w, (wraps l).
        repeat split; [|apply tlang_mk; exact Hw]. cbn [tseg behind].
        eexists _, _. split; [reflexivity|]. cbn. constructor.
      + destruct (flow_pair_sound s' r (x :: l) p' l' e w C Hw)
          as (i & u & v & ts1 & rest & Hu & H1 & H2 & Hv).
        exists (i ++ u), v, rest. repeat split; [exact Hu| |exact Hv].
        cbn [tseg behind]. eexists _, _. split; [reflexivity|]. econstructor; eassumption.
    - destruct l as [|x l]; [discriminate H|]. red_in H.
      unfold e_marker in H. destruct x as [[[]|d] m]; cbn -[parse_node] in H; try discriminate H.
      + injection H as <- <- <-. exists [EvMappingEnd], w, (wraps l).
        repeat split; [|apply tlang_mk; exact Hw]. cbn. constructor.
      + destruct l as [|x l]; [discriminate H|]. red_in H.
        assert (C : (exists m, x = mkEntry (Tok TFlowMappingEnd) m /\ p' = mk s' r /\ l' = l /\ ev_data e = EvMappingEnd) \/
          pair_case s' r (x :: l) p' l' e).
        { unfold pair_case. pair_choice x l H. }
        destruct C as [(m' & -> & -> & -> & ->)|C].
        * exists [EvMappingEnd], w, (wraps l). repeat split; [cbn; constructor|].
          apply tlang_mk; exact Hw.
        * destruct (flow_pair_sound s' r (x :: l) p' l' e w C Hw)
            as (i & u & v & ts1 & rest & Hu & H1 & H2 & Hv).
          exists (i ++ u), v, rest. repeat split; [exact Hu| |exact Hv].
          cbn [tseg behind]. cbn. econstructor; eassumption.
  Qed.

  Lemma flow_value_sound b s' r l p' l' e :
    flow_mapping_value E L b (mk (StFlowMappingValue b) (s' :: r)) l = (p', l', Ok (Some e)) ->
    trans_s (StFlowMappingValue b) (s' :: r) l p' l' e.
  Proof.
    intros H w Hw. cbn [tl_stack tseg]. destruct b.
    - destruct l as [|x l]; [discriminate H|]. red_in H. injection H as <- <- <-.
      apply tlang_mk in Hw. destruct Hw as (u & v & rest & -> & Hs & Hv).
      exists (absent Value :: u), v, rest. repeat split; [|exact Hv]. exists u. auto.
    - destruct (value_sound [MFlowEntry; MFlowMappingEnd] false (StFlowMappingKey false) (s' :: r)
                l p' l' e w) as (u & rest & v & Hu & Hq & Hv); [|exact Hw|].
      + destruct l as [|x l]; [discriminate H|]. red_in H. value_premise x l H.
      + destruct Hv as (u2 & v2 & rest2 & -> & H2 & Hv2).
        exists (u ++ u2), v2, rest2. rewrite <- app_assoc. repeat split; [exact Hu| |exact Hv2].
        exists u, rest, u2. auto.
  Qed.

  Lemma content_sound s' r l p' l' e :
    explicit_document_content E L (mk StDocumentContent (s' :: r)) l = (p', l', Ok (Some e)) ->
    trans_s StDocumentContent (s' :: r) l p' l' e.
  Proof.
    intros H w Hw. cbn [tl_stack tseg]. destruct l as [|x l]; [discriminate H|].
    assert (C : ahead_not (wraps (x :: l)) document_markers /\
      parse_node E L true Root (mk StDocumentContent (s' :: r)) (x :: l) = (p', l', Ok (Some e))).
    { unfold explicit_document_content in H. red_in H. unfold e_marker in *.
      destruct (maybe_marker (e_wrap x)) eqn:M; try discriminate H;
        (split; [apply ahead_not_mk; unfold e_marker; rewrite M; cbn; intuition discriminate
                |exact H]). }
    destruct C as [A C].
    destruct (node_sound _ _ _ _ _ _ _ _ _ C w Hw) as (u & rest & v & Hu & Hn & Hv).
    exists u, v, rest. repeat split; auto.
  Qed.

  Lemma content_silent s' r l p' l' w :
    shape_stack (s' :: r) ->
    explicit_document_content E L (mk StDocumentContent (s' :: r)) l = (p', l', Ok None) ->
    tlang p' (wraps l') w -> tl_stack known StDocumentContent (s' :: r) (wraps l) w.
  Proof.
    intros Hs H Hw. cbn [tl_stack tseg]. destruct l as [|x l]; [discriminate H|].
    assert (C : ahead_in (wraps (x :: l)) document_markers /\ p' = mk s' r /\ l' = x :: l).
    { unfold explicit_document_content in H. red_in H. unfold e_marker in *.
      destruct (maybe_marker (e_wrap x)) eqn:M;
        try (injection H as <- <-; repeat split; apply ahead_in_mk; unfold e_marker; rewrite M;
             cbn; tauto);
        destruct (node_spec E L true Root StDocumentContent _ D eq_refl Hs _ _ _ _ H) as [_ []]. }
    destruct C as (A & -> & ->).
    exists [], w, (wraps (x :: l)). repeat split; auto.
  Qed.
End Sound.

Section SoundStream.
  Variable debug : bool.
  Notation L := list_source.
  Notation E := (list entry).

  Lemma NoDup_app_snoc {A} (a : list A) x : NoDup a -> ~ In x a -> NoDup (a ++ [x]).
  Proof.
    intros H N. apply NoDup_rev in H. rewrite <- (rev_involutive (a ++ [x])).
    apply NoDup_rev. rewrite rev_app_distr. cbn. constructor; [|exact H].
    rewrite <- in_rev. exact N.
  Qed.

  (** ** Directives *)
  Lemma scan_directives_inv fuel : forall end_ seen ver tags p l p' l' e d,
    scan_directives E L fuel end_ seen (mkDirs ver tags) p l = (p', l', Ok (e, d)) ->
    NoDup (map (fun hp => cow_str (fst hp)) tags) ->
    exists ds, wraps l = map directive_token ds ++ wraps l' /\ p' = p /\
      d = mkDirs (hd ver (versions ds)) (tags ++ declared ds) /\
      List.length (versions ds) <= (if seen : bool then 0 else 1) /\
      NoDup (map (fun hp => cow_str (fst hp)) (tags ++ declared ds)) /\
      ahead_not (wraps l') directive_markers.
  Proof.
    induction fuel as [|fuel IH]; intros end_ seen ver tags p l p' l' e d H N; [discriminate H|].
    destruct l as [|x l]; [discriminate H|].
    cbn [scan_directives] in H. unfold pbind, peek, peek_opt in H; cbn -[tag_insert scan_directives] in H.
    assert (C : (p' = p /\ l' = x :: l /\ d = mkDirs ver tags /\
                 ahead_not (wraps (x :: l)) directive_markers) \/
      (exists a b m, x = mkEntry (Tok (TVersionDirective a b)) m /\ seen = false /\
         scan_directives E L fuel m true (mkDirs (a, b) tags) p l = (p', l', Ok (e, d))) \/
      (exists h q m, x = mkEntry (Tok (TTagDirective h q)) m /\ tag_get tags (cow_str h) = None /\
         scan_directives E L fuel m seen (mkDirs ver (tag_insert tags h q)) p l = (p', l', Ok (e, d)))).
    { destruct x as [[[]|] m]; cbn -[tag_insert scan_directives] in H;
        try (left; injection H as <- <- <- <-; repeat split;
             eexists; split; [reflexivity|cbn; intuition discriminate]).
      - right; left. destruct seen; [discriminate H|]. eauto 6.
      - right; right. destruct (tag_get tags (cow_str handle)) eqn:T; [discriminate H|]. eauto 6. }
    clear H. destruct C as [(-> & -> & -> & A)|[(a & b & m & -> & -> & H)|(h & q & m & -> & T & H)]].
    - exists []. cbn [declared versions flat_map app map hd]. rewrite app_nil_r.
      repeat split; auto. cbn; lia.
    - destruct (IH _ _ _ _ _ _ _ _ _ _ H N) as (ds & W & -> & -> & V & N' & A).
      exists (DVersion a b :: ds).
      assert (Z : versions ds = []) by (destruct (versions ds); [reflexivity|cbn in V; lia]).
      repeat split; auto.
      + cbn. f_equal. exact W.
      + cbn [versions flat_map]. change (flat_map _ ds) with (versions ds) at 1. rewrite Z. reflexivity.
      + cbn [versions flat_map]. change (flat_map _ ds) with (versions ds) at 1. rewrite Z. cbn; lia.
    - destruct (IH _ _ _ _ _ _ _ _ _ _ H) as (ds & W & -> & -> & V & N' & A).
      { unfold tag_insert. rewrite map_app. apply NoDup_app_snoc; [exact N|].
        apply tag_get_none; exact T. }
      exists (DTag h q :: ds). unfold tag_insert in *. rewrite <- app_assoc in *.
      repeat split; auto. cbn. f_equal. exact W.
  Qed.

  Lemma document_directives_inv p l p' l' s e d :
    scan_document_directives E L p l = (p', l', Ok (s, e, d)) ->
    exists ds, wraps l = map directive_token ds ++ wraps l' /\ p' = p /\ d = directives_of ds /\
      distinct ds /\ ahead_not (wraps l') directive_markers.
  Proof.
    intros H. unfold scan_document_directives in H.
    destruct l as [|x l]; [discriminate H|].
    unfold pbind at 1, peek, peek_opt, pbind at 1 in H. cbn [L ts_look map_err hd_error pret] in H.
    unfold pret at 1 in H. unfold budget, pbind at 1 in H. cbn [L ts_budget] in H. unfold pbind at 1 in H.
    destruct (scan_directives E L _ _ _ _ p (x :: l)) as [[p1 l1] [[e1 d1]| | |]] eqn:H1; try discriminate H.
    apply (scan_directives_inv _ _ _ default_version default_tags) in H1; [|apply distinct_nil].
    destruct H1 as (ds & W & -> & -> & V & N & A).
    injection H as <- <- <- <- <-. exists ds. repeat split; auto.
  Qed.

End SoundStream.

(** ** Transitions that deliver nothing *)
Section Silent.
  Variable R : Type.
  Variable T : token_source R.
  Variable debug : bool.
  Definition loud (x : pres (option event)) (p : parser) : Prop := x <> Ok None.

  Ltac step :=
    match goal with
    | |- always _ (pbind _ _ _) _ _ => apply always_bind
    | |- always _ (pret _ _) _ _ => apply always_ret
    | |- always _ (deliver _ _ _ _) _ _ => apply always_ret
    | |- always _ (empty_scalar _ _ _) _ _ => apply always_ret
    | |- always _ (pfail _ _) _ _ => apply always_fail
    | |- always _ (pupd _ _) _ _ => apply always_upd
    | |- always _ (activate _ _) _ _ => apply always_upd
    | |- always _ (peek _ _) _ _ => apply reads_peek; intros [[? ?]|?| |]
    | |- always _ (pop _ _) _ _ => apply reads_pop; intros [?|?| |]
    | |- always _ (consume _ _) _ _ => apply reads_consume; intros [[? ?]|?| |]
    | |- always _ (debug_assert _ _ _) _ _ => apply reads_assert; intros [?|?| |]
    end.
  Ltac crush :=
    repeat (first
      [ step
      | match goal with
        | |- loud _ _ => discriminate
        | |- always _ (parse_node _ _ _ _) _ _ =>
            eapply always_weaken;
            [apply node_spec; [reflexivity|cbn [st_push st_top ps_stack ps_top]; auto]
            |intros ? ? [_ ?]; intros ->; assumption]
        | |- always _ (match ?x with _ => _ end) _ _ => destruct x
        | |- always _ ((match ?x with _ => _ end)) _ _ => destruct x
        end ]).

  Lemma silent_states s st D :
    shape_of s st ->
    always R (state_transition R T debug) (mkParser s st D false)
      (fun x _ => x = Ok None -> s = StDocumentContent \/ exists i f, s = StDocumentStart i f).
  Proof.
    intros Hs r p' r' x H E. subst x. unfold state_transition, pbind at 1 in H. cbn [ps_top] in H.
    assert (HP : forall s', poppable s' = true -> stackable s' = true -> shape_stack st ->
                   shape_stack (s' :: st)).
    { intros s' H1 H2 H3. destruct st; [destruct H3|]. repeat split; assumption. }
    destruct s; eauto; exfalso; cbn in Hs;
      match type of H with ?m ?p r = _ =>
        assert (Z : always R m p loud); [clear H|exact (Z _ _ _ _ H eq_refl)] end;
      unfold stream_start, document_end, stream_end,
        block_sequence_entry, block_mapping_key, block_mapping_value,
        flow_sequence_entry, flow_sequence_entry_mapping_key, flow_sequence_entry_mapping_value,
        flow_sequence_entry_mapping_end, flow_mapping_key, flow_mapping_value, fetch_end; crush.
    all: try (intros ? ? ? ? [= <- <- <-]; cbn [ps_done]; crush).
  Qed.
End Silent.

Section SoundRun.
  Variable debug : bool.
  Notation L := list_source.
  Notation E := (list entry).

  (** What a transition or a run that delivered [d] says about the tokens. *)
  Definition explains (p : parser) (l : E) (d : list event_data) (p' : parser) (l' : E) : Prop :=
    forall w, tlang p' (wraps l') w -> tlang p (wraps l) (d ++ w).
  Definition data_of (o : option event) : list event_data :=
    match o with Some e => [ev_data e] | None => [] end.

  Lemma ds_nil ds m ts ts' :
    map directive_token ds ++ ts = m :: ts' -> ~ In (maybe_marker m) directive_markers -> ds = [].
  Proof.
    destruct ds as [|[a b|h q] ds]; intros H N; [reflexivity| |]; injection H as <- _;
      destruct N; cbn; auto.
  Qed.

  Lemma document_start_sound i f D l p' l' o :
    document_start E L i f (mkParser (StDocumentStart i f) [] D false) l = (p', l', Ok o) ->
    explains (mkParser (StDocumentStart i f) [] D false) l (data_of o) p' l'.
  Proof.
    intros H w Hw known Hk. cbn [ps_top ps_stack tl_stack]. clear Hk known.
    assert (G : (i = false -> ahead_not (wraps l) [MDocumentEnd]) ->
                exists rest, t_documents i f (wraps l) (data_of o ++ w) rest);
      [|destruct i; cbn; [apply G; discriminate|auto]].
    intros A. destruct l as [|x l].
    { destruct i; [discriminate H|]. destruct (A eq_refl) as (m & A1 & _). discriminate A1. }
    rewrite document_start_rest in H.
    2:{ destruct i; [auto|]. right. destruct (A eq_refl) as (m & A1 & A2). injection A1 as A1. intros C. apply A2. left. rewrite <- A1. symmetry. exact C. }
    unfold document_rest, pbind at 1, peek at 1, peek_opt, pbind at 1 in H.
    cbn [L ts_look map_err hd_error] in H. unfold pret at 1 in H. cbv zeta in H.
    set (mk := match e_marker x with
      | MTagDirective | MVersionDirective | MDocumentStart | MStreamEnd => true
      | _ => false end) in *.
    destruct (i && negb mk) eqn:B.
    - (* bare *)
      apply andb_prop in B. destruct B as [-> B].
      assert (I : ~ In (e_marker x) [MVersionDirective; MTagDirective; MDocumentStart; MStreamEnd]).
      { subst mk. destruct (e_marker x); try discriminate B; cbn; intuition discriminate. }
      unfold pbind at 1 in H.
      destruct (scan_document_directives E L _ (x :: l)) as [[p1 l1] [[[s e] d]| | |]] eqn:H1; try discriminate H.
      apply (document_directives_inv debug) in H1. destruct H1 as (ds & W & -> & -> & Hd & A').
      assert (ds = []) as ->.
      { eapply ds_nil; [symmetry; exact W|]. intros C; apply I. unfold e_marker in *. cbn in *; tauto. }
      cbn [map app] in W. injection H as <- <- <-. cbn [data_of ev_data app].
      specialize (Hw (known_in default_directives) (knows_owned default_directives)).
      cbn [ps_top ps_stack st_top st_push set_dirs tl_stack tseg tfinal] in Hw.
      destruct Hw as (u & v & rest & -> & Hn & rest' & He).
      exists rest'. eapply td_bare; [|rewrite W; exact Hn|exact He].
      apply ahead_not_mk; exact I.
    - destruct (marker_eqb (e_marker x) MStreamEnd) eqn:SE.
      + destruct x as [[[]|] m]; try discriminate SE. cbn [e_marker e_wrap maybe_marker token_marker] in H.
        destruct f.
        * unfold pbind at 1 in H.
          destruct (scan_document_directives E L _ _) as [[p1 l1] [[[s e] d]| | |]] eqn:H1; try discriminate H.
          apply (document_directives_inv debug) in H1. destruct H1 as (ds & W & -> & -> & Hd & A').
          assert (ds = []) as ->.
          { eapply ds_nil; [symmetry; exact W|]. cbn; intuition discriminate. }
          cbn [map app] in W. injection H as <- <- <-. cbn [data_of ev_data app].
          specialize (Hw (known_in default_directives) (knows_owned default_directives)). cbn [ps_top ps_stack st_top set_dirs tl_stack tfinal] in Hw.
          destruct Hw as (rest & He). rewrite <- W in He.
          inversion He; subst. exists rest. cbn. constructor. assumption.
        * injection H as <- <- <-. specialize (Hw (known_in D) ltac:(intros h; reflexivity)).
          destruct Hw as (rest & E1 & ->). cbn in E1. injection E1 as <-.
          exists (wraps l). cbn. constructor.
      + assert (H' : pbind E (scan_document_directives E L) (fun '(s, _, d) =>
          pbind E (peek E L) (fun '(_, t) =>
          pbind E (match t with
                   | MDocumentStart => pbind E (pop E L) (fun e => pret E (e_read e))
                   | _ => pfail E (Err MissingDocumentStart)
                   end) (fun e =>
          pbind E (pupd E (st_push StDocumentEnd)) (fun _ =>
          pbind E (pupd E (st_top StDocumentContent)) (fun _ =>
          pbind E (activate E d) (fun _ => deliver E s e (EvDocumentStart d false)))))))
          (mkParser (StDocumentStart i f) [] D false) (x :: l) = (p', l', Ok o)).
        { rewrite <- H. destruct (e_marker x); try discriminate SE; reflexivity. }
        clear H. unfold pbind at 1 in H'.
        destruct (scan_document_directives E L _ _) as [[p1 l1] [[[s e] d]| | |]] eqn:H1; try discriminate H'.
        apply (document_directives_inv debug) in H1. destruct H1 as (ds & W & -> & -> & Hd & A').
        destruct l1 as [|y l1]; [discriminate H'|].
        unfold pbind at 1, peek at 1, peek_opt, pbind at 1 in H'.
        cbn [L ts_look map_err hd_error] in H'. unfold pret at 1 in H'.
        destruct y as [[[]|] m]; cbn [e_marker e_wrap maybe_marker token_marker] in H'; try discriminate H'.
        injection H' as <- <- <-. cbn [data_of ev_data app].
        specialize (Hw (known_in (directives_of ds)) (knows_owned (directives_of ds))).
        cbn [ps_top ps_stack st_top st_push set_dirs tl_stack tseg tfinal] in Hw.
        destruct Hw as (u & v & rest & -> & Hn & rest' & He).
        exists rest'. rewrite W. cbn [wraps map e_wrap]. eapply td_explicit; [exact Hd| |exact He].
        destruct Hn as [(A1 & -> & ->)|(A1 & Hn)]; constructor; assumption.
  Qed.

  Lemma transition_sound p l p' l' o :
    shape p -> ps_done p = false ->
    state_transition E L debug p l = (p', l', Ok o) -> explains p l (data_of o) p' l'.
  Proof.
    destruct p as [s st D dn]. intros [Hs _] Hd H. cbn [ps_done] in Hd. subst dn.
    cbn [ps_top ps_stack] in Hs.
    destruct o as [e|].
    - unfold state_transition, pbind at 1 in H. cbn [ps_top] in H.
      destruct s; unfold shape_of in Hs; cbn [poppable] in Hs;
        try (subst st);
        try (destruct st as [|s' r]; [destruct Hs|]);
        try (intros w Hw known K; cbn [data_of app ps_top ps_stack];
             first [ eapply block_sequence_sound | eapply block_key_sound
                   | eapply block_value_sound | eapply flow_sequence_sound
                   | eapply flow_pair_key_sound | eapply flow_pair_value_sound
                   | eapply flow_pair_end_sound | eapply flow_mapping_sound
                   | eapply flow_value_sound | eapply content_sound ]; eassumption).
      + intros w Hw known K. destruct l as [|x l]; [discriminate H|].
        destruct x as [[[]|] m]; try discriminate H. cbn in H. injection H as <- <- <-.
        cbn [data_of app ps_top ps_stack tl_stack tfinal].
        destruct (Hw _ K) as (rest & Hr). exists rest. constructor. exact Hr.
      + intros w Hw known K. destruct l as [|x l]; [discriminate H|].
        destruct x as [[[]|] m]; try discriminate H. cbn in H. injection H as <- <- <-.
        cbn in Hw. subst w. exists (wraps l). split; reflexivity.
      + eapply document_start_sound; exact H.
      + intros w Hw known K. destruct l as [|x l]; [discriminate H|].
        cbn [data_of app ps_top ps_stack tl_stack tfinal].
        unfold document_end, pbind, peek, peek_opt in H; cbn in H.
        destruct (marker_eqb (e_marker x) MDocumentEnd) eqn:M.
        * destruct x as [[[]|] m]; try discriminate M. cbn in H. injection H as <- <- <-.
          destruct (Hw _ K) as (rest & Hr). exists rest. constructor. exact Hr.
        * assert (N : ahead_not (wraps (x :: l)) [MDocumentEnd]).
          { apply ahead_not_mk. intros [N|[]]. rewrite <- N in M. discriminate M. }
          destruct (e_marker x) eqn:Mx; try discriminate M; injection H as <- <- <-;
            (destruct (Hw _ K N) as (rest & Hr); exists rest; constructor; assumption).
      + intros w Hw known K.
        destruct (node_sound D known K _ _ _ _ _ _ _ _ _ H w Hw) as (u & rest & v & Hu & Hn & Hv).
        cbn [data_of app ps_top ps_stack tl_stack tseg]. exists u, v, rest. auto.
      + intros w Hw known K.
        destruct (node_sound D known K _ _ _ _ _ _ _ _ _ H w Hw) as (u & rest & v & Hu & Hn & Hv).
        cbn [data_of app ps_top ps_stack tl_stack tseg]. exists u, v, rest. auto.
    - destruct (silent_states E L debug s st D Hs _ _ _ _ H eq_refl) as [->|(i & f & ->)].
      + unfold shape_of in Hs; cbn [poppable] in Hs. destruct st as [|s' r]; [destruct Hs|].
        intros w Hw known K. cbn [data_of app ps_top ps_stack].
        eapply content_silent; eassumption.
      + cbn in Hs. subst st. eapply document_start_sound; exact H.
  Qed.

  Lemma event_loop_sound n : forall p l p' l' o,
    shape p -> event_loop E L debug n p l = (p', l', Ok o) -> explains p l (data_of o) p' l'.
  Proof.
    induction n as [|n IH]; intros p l p' l' o Hp H; cbn [event_loop] in H;
      destruct (ps_done p) eqn:Dn; try discriminate H;
      try (injection H as <- <- <-; intros w Hw; unfold tlang in *; rewrite Dn in *; exact Hw).
    destruct (state_transition E L debug p l) as [[p1 l1] [[e|]| | |]] eqn:S; try discriminate H.
    - injection H as <- <- <-. eapply transition_sound; eassumption.
    - intros w Hw. refine (transition_sound p l p1 l1 None Hp Dn S _ _).
      eapply IH; [|exact H|exact Hw].
      apply (transition_ok E L debug p Hp Dn _ _ _ _ S).
  Qed.

  (** A run that delivers its events up to [StreamEnd]. *)
  Lemma run_sound n : forall p l es,
    shape p -> ps_done p = false ->
    run_events L debug n p l = map (fun e => Ok (Some e)) es ->
    In EvStreamEnd (map ev_data es) ->
    forall known, knows (ps_dirs p) known ->
      tl_stack known (ps_top p) (ps_stack p) (wraps l) (map ev_data es).
  Proof.
    induction n as [|n IH]; intros p l es Hp Hd H I known K.
    - destruct es; [destruct I|discriminate H].
    - cbn [run_events] in H.
      destruct (next_event L debug p l) as [[p1 l1] x] eqn:Nx.
      destruct es as [|e es]; [destruct I|]. cbn [map] in H. injection H as -> H.
      pose proof (event_loop_sound _ _ _ _ _ _ Hp Nx) as X.
      destruct (next_event_ok E L debug p Hp _ _ _ _ Nx) as [[Hp1 _] _].
      destruct (ps_done p1) eqn:D1.
      + destruct n as [|n].
        * destruct es; [|discriminate H]. cbn [map]. 
          specialize (X []). unfold tlang at 1 in X. rewrite D1 in X.
          specialize (X eq_refl). unfold tlang in X. rewrite Hd in X. exact (X _ K).
        * cbn [run_events] in H. unfold next_event in H; cbn [event_loop] in H.
          rewrite D1 in H. destruct es; discriminate H.
      + specialize (X (map ev_data es)). unfold tlang in X. rewrite D1, Hd in X.
        cbn [map]. apply X; [|exact K]. intros k' K'. eapply IH; try eassumption.
        destruct I as [I|I]; [|exact I]. exfalso.
        (* StreamEnd is only delivered together with done *)
        pose proof (next_event_effect E L debug p _ _ _ _ Nx) as F.
        destruct F as [F _]. unfold effect_ok in F. rewrite I, D1 in F. destruct F; discriminate.
  Qed.
End SoundRun.
