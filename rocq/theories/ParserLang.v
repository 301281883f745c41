(** The parser's state stack generates only sentences of the event grammar. *)
From Verif Require Export SpecGrammar Parser.

(** What a state that can be popped still has to deliver. *)
Definition seg (s : state) (u : list event_data) : Prop :=
  match s with
  | StDocumentContent => u = [] \/ wf_node Root u
  | StBlockNode | StFlowNode => wf_node Root u
  | StBlockSequenceEntry _ | StFlowSequenceEntry _ =>
      exists x, wf_entries x /\ u = x ++ [EvSequenceEnd]
  | StBlockMappingKey _ | StFlowMappingKey _ =>
      exists x, wf_pairs x /\ u = x ++ [EvMappingEnd]
  | StBlockMappingValue | StFlowMappingValue _ =>
      exists v x, wf_node Value v /\ wf_pairs x /\ u = v ++ x ++ [EvMappingEnd]
  | StFlowSequenceMappingKey =>
      exists k v x, wf_node Key k /\ wf_node Value v /\ wf_entries x /\
                    u = k ++ v ++ EvMappingEnd :: x ++ [EvSequenceEnd]
  | StFlowSequenceMappingValue =>
      exists v x, wf_node Value v /\ wf_entries x /\
                  u = v ++ EvMappingEnd :: x ++ [EvSequenceEnd]
  | StFlowSequenceMappingEnd =>
      exists x, wf_entries x /\ u = EvMappingEnd :: x ++ [EvSequenceEnd]
  | StStreamStart | StStreamEnd | StDocumentStart _ _ | StDocumentEnd => False
  end.

(** What a state at the bottom of the stack still has to deliver. *)
Definition final (s : state) (w : list event_data) : Prop :=
  match s with
  | StStreamStart => wf_stream w
  | StStreamEnd => w = [EvStreamEnd]
  | StDocumentStart _ first =>
      exists d, wf_documents d /\ (first = true -> d <> []) /\ w = d ++ [EvStreamEnd]
  | StDocumentEnd =>
      exists j d, wf_documents d /\ w = EvDocumentEnd j :: d ++ [EvStreamEnd]
  | _ => False
  end.

Fixpoint lang_stack (s : state) (st : list state) (w : list event_data) : Prop :=
  match st with
  | [] => final s w
  | s' :: r => exists u v, seg s u /\ lang_stack s' r v /\ w = u ++ v
  end.

Definition lang (p : parser) (w : list event_data) : Prop :=
  if ps_done p then w = [] else lang_stack (ps_top p) (ps_stack p) w.

(** The shape every reachable state stack has. *)
Definition poppable (s : state) : bool :=
  match s with
  | StStreamStart | StStreamEnd | StDocumentStart _ _ | StDocumentEnd => false
  | _ => true
  end.
Definition stackable (s : state) : bool :=
  match s with
  | StStreamStart | StStreamEnd | StDocumentStart _ _
  | StDocumentContent | StBlockNode | StFlowNode => false
  | _ => true
  end.
Fixpoint shape_stack (st : list state) : Prop :=
  match st with
  | [] => False
  | [s] => s = StDocumentEnd
  | s :: r => poppable s = true /\ stackable s = true /\ shape_stack r
  end.
Definition shape_of (s : state) (st : list state) : Prop :=
  if poppable s then shape_stack st else st = [].
Definition shape (p : parser) : Prop :=
  shape_of (ps_top p) (ps_stack p) /\
  (ps_done p = true -> ps_top p = StStreamEnd).

Lemma seg_inhabited s : poppable s = true -> exists u, seg s u.
Proof.
  assert (V : wf_node Value [EvAlias (Borrowed [])]) by constructor.
  assert (K : wf_node Key [EvAlias (Borrowed [])]) by constructor.
  assert (R : wf_node Root [EvAlias (Borrowed [])]) by constructor.
  pose proof wf_entries_nil; pose proof wf_pairs_nil.
  destruct s; cbn [poppable seg]; intros P; try discriminate; eauto 10.
Qed.

Lemma final_inhabited s : poppable s = false -> exists w, final s w.
Proof.
  assert (D : wf_document [EvDocumentStart default_directives true; EvDocumentEnd true])
    by constructor.
  pose proof wf_documents_nil as N.
  pose proof (wf_documents_cons _ _ D N) as DN.
  destruct s; cbn [poppable final]; intros P; try discriminate; eauto.
  - eexists; eapply wf_stream_intro; eauto.
  - eexists; eexists; repeat split; eauto. cbn; discriminate.
  Unshelve. exact true.
Qed.

Lemma shape_stack_lang st s :
  poppable s = true -> shape_stack st -> exists w, lang_stack s st w.
Proof.
  revert s; induction st as [|s' r IH]; intros s P H; [destruct H|].
  destruct (seg_inhabited s P) as [u Hu].
  destruct r as [|s'' r].
  - cbn in H; subst s'.
    destruct (final_inhabited StDocumentEnd eq_refl) as [w Hw].
    exists (u ++ w); cbn [lang_stack]; eauto.
  - destruct H as (P' & _ & H).
    destruct (IH s' P' H) as [w Hw].
    exists (u ++ w); cbn [lang_stack] in *; eauto 6.
Qed.

Lemma shape_lang p : shape p -> exists w, lang p w.
Proof.
  destruct p as [s st ds d]; unfold shape, lang; cbn.
  intros [H _]; destruct d; [eauto|].
  unfold shape_of in H; destruct (poppable s) eqn:P.
  - apply shape_stack_lang; assumption.
  - subst st; apply final_inhabited; assumption.
Qed.

Section Run.
  Variable R : Type.
  Variable T : token_source R.
  Variable debug : bool.

  (** [always m p Q]: whatever the source does, [Q] holds of the outcome. *)
  Definition always {A} (m : P R A) (p : parser) (Q : pres A -> parser -> Prop) : Prop :=
    forall r p' r' x, m p r = (p', r', x) -> Q x p'.

  (** Failures that leave the parser as [p]. *)
  Definition fails {A} (Q : pres A -> parser -> Prop) (p : parser) : Prop :=
    (forall e, Q (Err e) p) /\ Q Panic p /\ Q Fuel p.

  Lemma always_ret A (a : A) p (Q : pres A -> parser -> Prop) : Q (Ok a) p -> always (pret R a) p Q.
  Proof. intros H r p' r' x E; inversion E; subst; exact H. Qed.

  Lemma always_fail A (x : pres A) p (Q : pres A -> parser -> Prop) : Q x p -> always (pfail R x) p Q.
  Proof. intros H r p' r' y E; inversion E; subst; exact H. Qed.

  Lemma always_upd f p (Q : pres unit -> parser -> Prop) : Q (Ok tt) (f p) -> always (pupd R f) p Q.
  Proof. intros H r p' r' y E; inversion E; subst; exact H. Qed.

  Lemma always_bind A B (m : P R A) (k : A -> P R B) p (Q : pres B -> parser -> Prop) :
    always m p (fun x p' => match x with
                            | Ok a => always (k a) p' Q
                            | Err e => Q (Err e) p'
                            | Panic => Q Panic p'
                            | Fuel => Q Fuel p'
                            end) ->
    always (pbind R m k) p Q.
  Proof.
    intros H r p' r' y E. unfold pbind in E.
    destruct (m p r) as [[p1 r1] x] eqn:M.
    specialize (H _ _ _ _ M).
    destruct x; try (inversion E; subst; exact H).
    exact (H _ _ _ _ E).
  Qed.

  Lemma always_weaken A (m : P R A) p (Q Q' : pres A -> parser -> Prop) :
    always m p Q -> (forall x p', Q x p' -> Q' x p') -> always m p Q'.
  Proof. intros H I r p' r' y E; apply I; eapply H; eassumption. Qed.

  (** Reading tokens leaves the parser alone and may fail in any way. *)
  Definition reads {A} (m : P R A) : Prop :=
    forall p (Q : pres A -> parser -> Prop), (forall x, Q x p) -> always m p Q.

  Lemma reads_peek_opt : reads (peek_opt R T).
  Proof.
    intros p Q H r p' r' y E. unfold peek_opt in E.
    destruct (ts_look T r); inversion E; subst; apply H.
  Qed.

  Lemma reads_bind A B (m : P R A) (k : A -> P R B) :
    reads m -> (forall a, reads (k a)) -> reads (pbind R m k).
  Proof.
    intros Hm Hk p Q H; apply always_bind, Hm.
    intros [a|e| |]; try apply H. apply Hk, H.
  Qed.

  Lemma reads_ret A (a : A) : reads (pret R a).
  Proof. intros p Q H; apply always_ret, H. Qed.

  Lemma reads_fail A (x : pres A) : reads (pfail R x).
  Proof. intros p Q H; apply always_fail, H. Qed.

  Lemma reads_peek : reads (peek R T).
  Proof.
    apply reads_bind; [apply reads_peek_opt|intros [e|]]; [apply reads_ret|apply reads_fail].
  Qed.

  Lemma reads_pop : reads (pop R T).
  Proof.
    apply reads_bind.
    - intros p Q H r p' r' y E. destruct (ts_pop T r); inversion E; subst; apply H.
    - intros [e|]; [apply reads_ret|apply reads_fail].
  Qed.

  Lemma reads_consume : reads (consume R T).
  Proof.
    apply reads_bind; [apply reads_pop|intros e; destruct (e_wrap e)];
      [apply reads_ret|apply reads_fail].
  Qed.

  Lemma reads_consume_scalar : reads (consume_scalar R T).
  Proof.
    apply reads_bind; [apply reads_pop|intros e; destruct (e_wrap e) as [[]|]];
      first [apply reads_ret|apply reads_fail].
  Qed.

  Lemma reads_assert b : reads (debug_assert R debug b).
  Proof.
    unfold debug_assert; destruct (debug && negb b); [apply reads_fail|apply reads_ret].
  Qed.

  Lemma reads_budget : reads (budget R T).
  Proof. intros p Q H r p' r' y E; inversion E; subst; apply H. Qed.

  Lemma reads_fetch_anchor : reads (fetch_anchor R T).
  Proof.
    apply reads_bind; [apply reads_peek_opt|intros e].
    destruct (option_map e_marker e) as [[]|]; try apply reads_ret.
    apply reads_bind; [apply reads_consume|intros [m []]];
      first [apply reads_ret|apply reads_fail].
  Qed.

  Lemma reads_fetch_tag : reads (fetch_tag R T).
  Proof.
    apply reads_bind; [apply reads_peek_opt|intros e].
    destruct (option_map e_marker e) as [[]|]; try apply reads_ret.
    apply reads_bind; [apply reads_consume|intros [m []]];
      first [apply reads_ret|apply reads_fail].
  Qed.

  Lemma reads_properties s t : reads (properties R T s t).
  Proof.
    destruct t; try apply reads_ret;
      repeat (apply reads_bind;
              [first [apply reads_fetch_anchor|apply reads_fetch_tag]|intros ?]);
      apply reads_ret.
  Qed.

  Lemma reads_scan_directives n e b d : reads (scan_directives R T n e b d).
  Proof.
    revert e b d; induction n as [|n IH]; intros e b d; cbn [scan_directives];
      [apply reads_fail|].
    apply reads_bind; [apply reads_peek|intros [m t]].
    destruct t; try apply reads_ret.
    - destruct b; [apply reads_fail|].
      apply reads_bind; [apply reads_consume|intros [m' []]];
        first [apply reads_fail|apply IH].
    - apply reads_bind; [apply reads_consume|intros [m' []]]; try apply reads_fail.
      destruct (tag_get _ _); [apply reads_fail|apply IH].
  Qed.

  Lemma reads_scan_document_directives : reads (scan_document_directives R T).
  Proof.
    apply reads_bind; [apply reads_peek|intros [s t]].
    apply reads_bind; [apply reads_budget|intros n].
    apply reads_bind; [apply reads_scan_directives|intros [e d]].
    apply reads_ret.
  Qed.

  Lemma reads_skip n : reads (skip_document_ends R T n).
  Proof.
    induction n as [|n IH]; cbn [skip_document_ends]; [apply reads_fail|].
    apply reads_bind; [apply reads_peek|intros [m t]].
    destruct t; try apply reads_ret.
    apply reads_bind; [apply reads_pop|intros; apply IH].
  Qed.

  (** Outcome of a step from [p]. *)
  Definition step_ok (p : parser) (x : pres (option event)) (p' : parser) : Prop :=
    shape p' /\
    match x with
    | Ok (Some e) => forall w, lang p' w -> lang p (ev_data e :: w)
    | Ok None => forall w, lang p' w -> lang p w
    | _ => True
    end.

  Definition lang_rest (st : list state) (w : list event_data) : Prop :=
    match st with [] => False | s :: r => lang_stack s r w end.

  (** Outcome of parsing a node from [p]: the event starts a node of kind [k], after
      which the stacked states continue. *)
  Definition node_ok (k : node_kind) (p : parser) (x : pres (option event)) (p' : parser)
    : Prop :=
    shape p' /\
    match x with
    | Ok (Some e) =>
        forall w, lang p' w ->
          exists u v, wf_node k u /\ lang_rest (ps_stack p) v /\ ev_data e :: w = u ++ v
    | Ok None => False
    | _ => True
    end.

  Ltac step :=
    match goal with
    | |- always (pbind _ _ _) _ _ => apply always_bind
    | |- always (pret _ _) _ _ => apply always_ret
    | |- always (deliver _ _ _ _) _ _ => apply always_ret
    | |- always (empty_scalar _ _ _) _ _ => apply always_ret
    | |- always (pfail _ _) _ _ => apply always_fail
    | |- always (pupd _ _) _ _ => apply always_upd
    | |- always (activate _ _) _ _ => apply always_upd
    | |- always (peek _ _) _ _ => apply reads_peek; intros [[? ?]|?| |]
    | |- always (pop _ _) _ _ => apply reads_pop; intros [?|?| |]
    | |- always (consume _ _) _ _ => apply reads_consume; intros [[? ?]|?| |]
    | |- always (consume_scalar _ _) _ _ => apply reads_consume_scalar; intros [[? ?]|?| |]
    | |- always (debug_assert _ _ _) _ _ => apply reads_assert; intros [?|?| |]
    | |- always (budget _ _) _ _ => apply reads_budget; intros [?|?| |]
    | |- always (properties _ _ _ _) _ _ => apply reads_properties; intros [[[? ?] ?]|?| |]
    | |- always (skip_document_ends _ _ _) _ _ => apply reads_skip; intros [?|?| |]
    | |- always (scan_document_directives _ _) _ _ =>
        apply reads_scan_document_directives; intros [[[? ?] ?]|?| |]
    end.

  Lemma validate_kind tags n b n' :
    validate_tag tags n b = Ok n' -> n_kind n' = n_kind n.
  Proof.
    unfold validate_tag. destruct (n_tag n) as [[h s]|]; [|congruence].
    destruct (b && _); [intros E; inversion E; reflexivity|].
    destruct (tag_get _ _); congruence.
  Qed.

  Lemma always_checked s e n b mk p (Q : pres (option event) -> parser -> Prop) :
    (forall n', n_kind n' = n_kind n -> Q (Ok (Some (mkEvent s e (mk n')))) p) ->
    (forall x, Q (Err x) p) -> Q Panic p -> Q Fuel p ->
    always (checked R s e n b mk) p Q.
  Proof.
    intros HO HE HP HF r p' r' x E. unfold checked in E.
    destruct (validate_tag _ _ _) eqn:V; inversion E; subst; auto.
    apply HO. eapply validate_kind, V.
  Qed.

  (** The stack after popping. *)
  Lemma shape_pop s st d :
    shape_stack st -> shape (st_pop (mkParser s st d false)).
  Proof.
    destruct st as [|a r]; [intros []|]. unfold shape, shape_of; cbn.
    intros H; split; [|discriminate].
    destruct r as [|b r]; [subst; reflexivity|].
    destruct H as (P & _ & H). rewrite P. exact H.
  Qed.

  Lemma lang_pop s st d w :
    shape_stack st -> lang (st_pop (mkParser s st d false)) w -> lang_rest st w.
  Proof. destruct st as [|a r]; [intros []|]. unfold lang; cbn; auto. Qed.

  Lemma shape_top s st d :
    poppable s = true -> shape_stack st -> shape (mkParser s st d false).
  Proof. intros P H; unfold shape, shape_of; cbn; rewrite P; split; [exact H|discriminate]. Qed.

  Lemma lang_top s st d w :
    shape_stack st -> lang (mkParser s st d false) w ->
    exists u v, seg s u /\ lang_rest st v /\ w = u ++ v.
  Proof. destruct st as [|a r]; [intros []|]. unfold lang; cbn; auto. Qed.

  Lemma node_spec b k s st d :
    poppable s = true -> shape_stack st ->
    always (parse_node R T b k) (mkParser s st d false) (node_ok k (mkParser s st d false)).
  Proof.
    intros P H.
    assert (HT : shape (mkParser s st d false)) by (apply shape_top; assumption).
    assert (HP : shape (st_pop (mkParser s st d false))) by (apply shape_pop; assumption).
    assert (HE : forall (x : pres (option event)) p', shape p' ->
              match x with Ok _ => False | _ => True end ->
              node_ok k (mkParser s st d false) x p').
    { intros x p' Hp X; split; [exact Hp|]. destruct x; [destruct X|..]; exact I. }
    assert (HS : forall n sc p', n_kind n = k -> p' = st_pop (mkParser s st d false) ->
              forall a b, node_ok k (mkParser s st d false)
                            (Ok (Some (mkEvent a b (EvScalar n sc)))) p').
    { intros n sc p' <- -> a b0; split; [exact HP|].
      intros w Hw. exists [EvScalar n sc], w.
      repeat split; [constructor|eapply lang_pop; eassumption]. }
    assert (HQ : forall n p', n_kind n = k ->
              (exists f, p' = mkParser (StBlockSequenceEntry f) st d false \/
                         p' = mkParser (StFlowSequenceEntry f) st d false) ->
              forall a b, node_ok k (mkParser s st d false)
                            (Ok (Some (mkEvent a b (EvSequenceStart n)))) p').
    { intros n p' <- [f Hp] a b0; split.
      - destruct Hp; subst p'; apply shape_top; auto.
      - intros w Hw.
        assert (L : exists u v, (exists x, wf_entries x /\ u = x ++ [EvSequenceEnd]) /\
                                lang_rest st v /\ w = u ++ v)
          by (destruct Hp; subst p'; apply lang_top in Hw; auto).
        destruct L as (u & v & (x & Hx & ->) & Hv & ->).
        exists (EvSequenceStart n :: x ++ [EvSequenceEnd]), v.
        repeat split; [constructor; exact Hx|exact Hv]. }
    assert (HM : forall n p', n_kind n = k ->
              (exists f, p' = mkParser (StBlockMappingKey f) st d false \/
                         p' = mkParser (StFlowMappingKey f) st d false) ->
              forall a b, node_ok k (mkParser s st d false)
                            (Ok (Some (mkEvent a b (EvMappingStart n)))) p').
    { intros n p' <- [f Hp] a b0; split.
      - destruct Hp; subst p'; apply shape_top; auto.
      - intros w Hw.
        assert (L : exists u v, (exists x, wf_pairs x /\ u = x ++ [EvMappingEnd]) /\
                                lang_rest st v /\ w = u ++ v)
          by (destruct Hp; subst p'; apply lang_top in Hw; auto).
        destruct L as (u & v & (x & Hx & ->) & Hv & ->).
        exists (EvMappingStart n :: x ++ [EvMappingEnd]), v.
        repeat split; [constructor; exact Hx|exact Hv]. }
    assert (HX : forall f st', (forall st, poppable (st_top f (mkParser s st d false)).(ps_top) = true) ->
              shape_stack st' -> shape (st_top f (mkParser s st' d false))).
    { intros f st' Pf Hs. apply shape_top; [apply (Pf []) | exact Hs]. }
    assert (HN : forall x y n, n_kind n = k ->
              always (node_empty R x y n) (mkParser s st d false)
                (node_ok k (mkParser s st d false))).
    { intros x y n Hk. unfold node_empty.
      destruct (n_anchor n), (n_tag n); repeat step;
        try (apply always_checked; intros; try (apply HS; congruence));
        apply HE; first [exact HT|exact HP|exact I]. }
    unfold parse_node; step. step; try (apply HE; [exact HT|exact I]).
    assert (HC : forall x m, always (node_content R T b k x m) (mkParser s st d false)
                   (node_ok k (mkParser s st d false))).
    { intros x0 m0. unfold node_content.
      step; step; try (apply HE; [exact HT|exact I]).
      step; step; try (apply HE; [exact HT|exact I]).
      unfold node_variant.
      match goal with |- always (match ?t with _ => _ end) _ _ => destruct t end;
        try (apply HN; reflexivity);
        try (destruct b; [|apply HN; reflexivity]);
        repeat step;
        try (apply HE; [exact HT|exact I]);
        apply always_checked; intros;
        try (apply HE; [|exact I]);
        try exact HP; try (apply HX; [reflexivity|assumption]);
        try (apply HS; [cbn in *; congruence|reflexivity]);
        try (apply HQ; [cbn in *; congruence|exists true; cbn; auto]);
        try (apply HM; [cbn in *; congruence|exists true; cbn; auto]). }
    match goal with |- always (match ?t with _ => _ end) _ _ => destruct t end;
      try apply HC.
    repeat step; try (apply HE; [exact HP|exact I]).
    match goal with |- always (match ?t with _ => _ end) _ _ => destruct t end;
      repeat step; try (apply HE; [exact HP|exact I]).
    split; [exact HP|].
    intros w Hw; eexists [_], w; repeat split; [constructor|eapply lang_pop; eassumption].
  Qed.

  Notation at_ s st d := (mkParser s st d false).

  Lemma step_err p x p' :
    shape p' -> match x with Ok _ => False | _ => True end -> step_ok p x p'.
  Proof. intros H X; split; [exact H|]; destruct x; [destruct X|..]; exact I. Qed.

  Lemma step_push b k s s' st d :
    poppable s = true -> poppable s' = true -> stackable s' = true -> shape_stack st ->
    (forall u y, wf_node k u -> seg s' y -> seg s (u ++ y)) ->
    always (pbind R (pupd R (st_push s')) (fun _ => parse_node R T b k))
      (at_ s st d) (step_ok (at_ s st d)).
  Proof.
    intros Ps Ps' Ss Hst Hseg. step. step. unfold st_push; cbn.
    assert (Hs' : shape_stack (s' :: st)).
    { destruct st; [destruct Hst|]. repeat split; assumption. }
    eapply always_weaken; [apply node_spec; assumption|].
    intros x p' [Hp Hx]. split; [exact Hp|].
    destruct x as [[e|]|e| |]; try exact I; [|destruct Hx].
    intros w Hw. destruct (Hx w Hw) as (u & v & Hu & Hv & E). rewrite E.
    cbn in Hv. unfold lang; cbn. destruct st as [|a r]; [destruct Hst|].
    destruct Hv as (y & z & Hy & Hz & ->).
    exists (u ++ y), z. rewrite app_assoc; auto.
  Qed.

  Lemma step_top e s s' st d :
    poppable s = true -> poppable s' = true -> shape_stack st ->
    (forall y, seg s' y -> seg s (ev_data e :: y)) ->
    step_ok (at_ s st d) (Ok (Some e)) (st_top s' (at_ s st d)).
  Proof.
    intros Ps Ps' Hst Hseg. split; [apply shape_top; assumption|].
    intros w Hw. apply lang_top in Hw; [|assumption].
    destruct Hw as (u & v & Hu & Hv & ->).
    unfold lang; cbn. destruct st as [|a r]; [destruct Hst|].
    exists (ev_data e :: u), v; auto.
  Qed.

  Lemma step_pop e s st d :
    poppable s = true -> shape_stack st -> seg s [ev_data e] ->
    step_ok (at_ s st d) (Ok (Some e)) (st_pop (at_ s st d)).
  Proof.
    intros Ps Hst Hseg. split; [apply shape_pop; assumption|].
    intros w Hw. apply lang_pop in Hw; [|assumption].
    unfold lang; cbn. destruct st as [|a r]; [destruct Hst|].
    exists [ev_data e], w; auto.
  Qed.

  (** Facts about segments used by the handlers. *)
  Lemma entries_cons1 u x :
    wf_node Entry u -> (exists y, wf_entries y /\ x = y ++ [EvSequenceEnd]) ->
    exists y, wf_entries y /\ u ++ x = y ++ [EvSequenceEnd].
  Proof.
    intros Hu (y & Hy & ->). exists (u ++ y). rewrite app_assoc.
    split; [constructor; assumption|reflexivity].
  Qed.

  Lemma pairs_value u x :
    wf_node Value u -> (exists y, wf_pairs y /\ x = y ++ [EvMappingEnd]) ->
    exists v y, wf_node Value v /\ wf_pairs y /\ u ++ x = v ++ y ++ [EvMappingEnd].
  Proof. intros Hu (y & Hy & ->). eauto. Qed.

  Lemma pairs_key u x :
    wf_node Key u ->
    (exists v y, wf_node Value v /\ wf_pairs y /\ x = v ++ y ++ [EvMappingEnd]) ->
    exists y, wf_pairs y /\ u ++ x = y ++ [EvMappingEnd].
  Proof.
    intros Hu (v & y & Hv & Hy & ->). exists (u ++ v ++ y).
    split; [constructor; assumption|rewrite <- !app_assoc; reflexivity].
  Qed.

  Lemma compact_key u x :
    wf_node Key u -> seg StFlowSequenceMappingValue x -> seg StFlowSequenceMappingKey (u ++ x).
  Proof. intros Hu (v & y & Hv & Hy & ->). cbn. eauto 10. Qed.

  Lemma compact_value u x :
    wf_node Value u -> seg StFlowSequenceMappingEnd x -> seg StFlowSequenceMappingValue (u ++ x).
  Proof. intros Hu (y & Hy & ->). cbn. eauto 10. Qed.

  Lemma compact_start n x :
    n_kind n = Entry -> seg StFlowSequenceMappingKey x ->
    exists y, wf_entries y /\ EvMappingStart n :: x = y ++ [EvSequenceEnd].
  Proof.
    intros Hn (k & v & y & Hk & Hv & Hy & ->).
    exists ((EvMappingStart n :: (k ++ v ++ []) ++ [EvMappingEnd]) ++ y). split.
    - constructor; [|exact Hy]. rewrite <- Hn. constructor.
      constructor; [exact Hk|exact Hv|constructor].
    - cbn. rewrite <- !app_assoc; cbn. rewrite <- ?app_assoc; reflexivity.
  Qed.

  Lemma empty_node k : wf_node k [EvScalar (mkNode None None k) empty_scalar_like].
  Proof. apply (wf_scalar (mkNode None None k)). Qed.

  Hint Resolve entries_cons1 pairs_value pairs_key compact_key compact_value : seg.

  Lemma seg_end_seq s : (exists f, s = StBlockSequenceEntry f \/ s = StFlowSequenceEntry f) ->
    seg s [EvSequenceEnd].
  Proof. intros [f [-> | ->]]; exists []; split; try constructor. Qed.

  Lemma seg_end_map s : (exists f, s = StBlockMappingKey f \/ s = StFlowMappingKey f) ->
    seg s [EvMappingEnd].
  Proof. intros [f [-> | ->]]; exists []; split; try constructor. Qed.

  (** Close the goals the symbolic execution of a collection handler leaves. *)
  Ltac branch :=
    match goal with
    | |- always (match ?t with _ => _ end) _ _ => destruct t
    | |- always (if ?t then _ else _) _ _ => destruct t
    end.
  Ltac finish Hst :=
    match goal with
    | |- step_ok _ (Ok (Some _)) (st_top _ _) =>
        apply step_top; [reflexivity|reflexivity|exact Hst|];
        let y := fresh "y" in let Hy := fresh "Hy" in
        intros y Hy; cbn [ev_data];
        match goal with
        | |- seg ?s (?e :: y) =>
            change (seg s ([e] ++ y));
            first [apply entries_cons1 | apply pairs_value | apply pairs_key
                  | apply compact_key | apply compact_value];
            [apply empty_node | exact Hy]
        | _ => idtac
        end
    | |- step_ok _ (Ok (Some _)) (st_pop _) =>
        apply step_pop; [reflexivity|exact Hst|];
        first [apply seg_end_seq; eexists; (left; reflexivity) || (right; reflexivity)
              |apply seg_end_map; eexists; (left; reflexivity) || (right; reflexivity)]
    | |- step_ok _ _ _ =>
        apply step_err; [|exact I];
        first [apply shape_top; [reflexivity|exact Hst] | apply shape_pop; exact Hst]
    | |- always (pbind _ (pupd _ (st_push _)) _) _ _ =>
        apply step_push; [reflexivity|reflexivity|reflexivity|exact Hst|];
        first [apply entries_cons1 | apply pairs_value | apply pairs_key
              | apply compact_key | apply compact_value]
    end.
  Ltac run Hst := repeat first [finish Hst | step | branch].

  Lemma block_sequence_entry_ok f st d : shape_stack st ->
    always (block_sequence_entry R T debug f) (at_ (StBlockSequenceEntry f) st d)
      (step_ok (at_ (StBlockSequenceEntry f) st d)).
  Proof. intros Hst. unfold block_sequence_entry. run Hst. Qed.

  Lemma block_mapping_key_ok f st d : shape_stack st ->
    always (block_mapping_key R T debug f) (at_ (StBlockMappingKey f) st d)
      (step_ok (at_ (StBlockMappingKey f) st d)).
  Proof. intros Hst. unfold block_mapping_key. run Hst. Qed.

  Lemma block_mapping_value_ok st d : shape_stack st ->
    always (block_mapping_value R T) (at_ StBlockMappingValue st d)
      (step_ok (at_ StBlockMappingValue st d)).
  Proof. intros Hst. unfold block_mapping_value. run Hst. Qed.

  Lemma flow_sequence_entry_ok f st d : shape_stack st ->
    always (flow_sequence_entry R T debug f) (at_ (StFlowSequenceEntry f) st d)
      (step_ok (at_ (StFlowSequenceEntry f) st d)).
  Proof.
    intros Hst. unfold flow_sequence_entry, fetch_end. run Hst;
      apply compact_start; solve [reflexivity|assumption].
  Qed.

  Lemma flow_sequence_entry_mapping_key_ok st d : shape_stack st ->
    always (flow_sequence_entry_mapping_key R T) (at_ StFlowSequenceMappingKey st d)
      (step_ok (at_ StFlowSequenceMappingKey st d)).
  Proof. intros Hst. unfold flow_sequence_entry_mapping_key. run Hst. Qed.

  Lemma flow_sequence_entry_mapping_value_ok st d : shape_stack st ->
    always (flow_sequence_entry_mapping_value R T) (at_ StFlowSequenceMappingValue st d)
      (step_ok (at_ StFlowSequenceMappingValue st d)).
  Proof. intros Hst. unfold flow_sequence_entry_mapping_value. run Hst. Qed.

  Lemma flow_sequence_entry_mapping_end_ok st d : shape_stack st ->
    always (flow_sequence_entry_mapping_end R T debug) (at_ StFlowSequenceMappingEnd st d)
      (step_ok (at_ StFlowSequenceMappingEnd st d)).
  Proof.
    intros Hst. unfold flow_sequence_entry_mapping_end. run Hst.
    destruct Hy as (x & Hx & ->). exists x; auto.
  Qed.

  Lemma flow_mapping_key_ok f st d : shape_stack st ->
    always (flow_mapping_key R T debug f) (at_ (StFlowMappingKey f) st d)
      (step_ok (at_ (StFlowMappingKey f) st d)).
  Proof. intros Hst. unfold flow_mapping_key, fetch_end. run Hst. Qed.

  Lemma flow_mapping_value_ok f st d : shape_stack st ->
    always (flow_mapping_value R T f) (at_ (StFlowMappingValue f) st d)
      (step_ok (at_ (StFlowMappingValue f) st d)).
  Proof. intros Hst. unfold flow_mapping_value. run Hst. Qed.

  Lemma root_node_ok b s st d : shape_stack st ->
    s = StBlockNode \/ s = StFlowNode \/ s = StDocumentContent ->
    always (parse_node R T b Root) (at_ s st d) (step_ok (at_ s st d)).
  Proof.
    intros Hst Hs.
    eapply always_weaken; [apply node_spec|].
    - destruct Hs as [->|[->| ->]]; reflexivity.
    - exact Hst.
    - intros x p' [Hp Hx]. split; [exact Hp|].
      destruct x as [[e|]|e| |]; try exact I; [|destruct Hx].
      intros w Hw. destruct (Hx w Hw) as (u & v & Hu & Hv & E). rewrite E.
      unfold lang; cbn in *. destruct st as [|a r]; [destruct Hst|].
      exists u, v. repeat split; [|exact Hv].
      destruct Hs as [->|[->| ->]]; cbn; auto.
  Qed.

  Lemma explicit_document_content_ok st d : shape_stack st ->
    always (explicit_document_content R T) (at_ StDocumentContent st d)
      (step_ok (at_ StDocumentContent st d)).
  Proof.
    intros Hst. unfold explicit_document_content.
    assert (E : always (pbind R (pupd R st_pop) (fun _ => pret R None))
                  (at_ StDocumentContent st d) (step_ok (at_ StDocumentContent st d))).
    { step. step. step. split; [apply shape_pop; exact Hst|].
      intros w Hw. apply lang_pop in Hw; [|exact Hst].
      unfold lang; cbn. destruct st as [|a r]; [destruct Hst|].
      exists [], w; cbn; auto. }
    step. step; try (apply step_err; [apply shape_top; [reflexivity|exact Hst]|exact I]).
    branch; first [exact E | apply root_node_ok; auto].
  Qed.

  Lemma stream_start_ok d :
    always (stream_start R T) (at_ StStreamStart [] d) (step_ok (at_ StStreamStart [] d)).
  Proof.
    assert (S : shape (at_ StStreamStart [] d)) by (split; [reflexivity|discriminate]).
    unfold stream_start.
    repeat first [step | branch]; try (apply step_err; [exact S|exact I]).
    split; [split; [reflexivity|discriminate]|].
    unfold lang; cbn. intros w (x & Hx & Hn & ->).
    destruct Hx as [|x r Hx Hr]; [destruct Hn; reflexivity|].
    rewrite <- app_assoc. constructor; assumption.
  Qed.

  Lemma document_end_ok d :
    always (document_end R T) (at_ StDocumentEnd [] d) (step_ok (at_ StDocumentEnd [] d)).
  Proof.
    assert (S : shape (at_ StDocumentEnd [] d)) by (split; [reflexivity|discriminate]).
    unfold document_end.
    repeat first [step | branch]; try (apply step_err; [exact S|exact I]);
    (split; [split; [reflexivity|discriminate]|]);
    unfold lang; cbn; intros w (x & Hx & Hn & ->); eauto.
  Qed.

  Lemma stream_end_ok d :
    always (stream_end R T) (at_ StStreamEnd [] d) (step_ok (at_ StStreamEnd [] d)).
  Proof.
    assert (S : shape (at_ StStreamEnd [] d)) by (split; [reflexivity|discriminate]).
    intros r p' r' x. unfold stream_end. unfold pbind at 1; cbn [ps_done].
    revert r p' r' x.
    match goal with
    | |- forall r p' r' x, ?m _ r = _ -> step_ok ?p x p' =>
        change (always m (at_ StStreamEnd [] d) (step_ok p))
    end.
    repeat first [step | branch]; try (apply step_err; [exact S|exact I]).
    split; [split; [reflexivity|reflexivity]|].
    unfold lang; cbn; intros w ->; reflexivity.
  Qed.

  Lemma document_start_ok i f d :
    always (document_start R T i f) (at_ (StDocumentStart i f) [] d)
      (step_ok (at_ (StDocumentStart i f) [] d)).
  Proof.
    assert (S : shape (at_ (StDocumentStart i f) [] d)) by (split; [reflexivity|discriminate]).
    unfold document_start.
    step. apply always_weaken with (Q := fun x p' => p' = at_ (StDocumentStart i f) [] d).
    { destruct i; repeat step; reflexivity. }
    intros x p' ->. destruct x as [[]|e| |]; try (apply step_err; [exact S|exact I]).
    step. step; try (apply step_err; [exact S|exact I]).
    cbv zeta.
    assert (Hne : forall (x y : list event_data), x ++ y <> [] \/ x = [] /\ y = []).
    { intros [|? ?] [|? ?]; cbn; auto; left; discriminate. }
    branch.
    - step. step; try (apply step_err; [exact S|exact I]).
      do 3 (step; step). step.
      split; [split; [reflexivity|discriminate]|].
      unfold lang; cbn. intros w (u & v & Hu & (j & x & Hx & ->) & ->).
      eexists ((EvDocumentStart d0 true :: u ++ [EvDocumentEnd j]) ++ x).
      repeat split; [constructor; [constructor; exact Hu|exact Hx]|intros _; discriminate|].
      cbn. rewrite <- !app_assoc. reflexivity.
    - assert (E : always
        (pbind R (scan_document_directives R T) (fun '(s, _, d1) =>
         pbind R (peek R T) (fun '(_, t) =>
         pbind R (match t with
                  | MDocumentStart => pbind R (pop R T) (fun e => pret R (e_read e))
                  | _ => pfail R (Err MissingDocumentStart)
                  end) (fun e =>
         pbind R (pupd R (st_push StDocumentEnd)) (fun _ =>
         pbind R (pupd R (st_top StDocumentContent)) (fun _ =>
         pbind R (activate R d1) (fun _ => deliver R s e (EvDocumentStart d1 false))))))))
        (at_ (StDocumentStart i f) [] d) (step_ok (at_ (StDocumentStart i f) [] d))).
      { step. step; try (apply step_err; [exact S|exact I]).
        step. step; try (apply step_err; [exact S|exact I]).
        step. apply always_weaken with (Q := fun x p' => p' = at_ (StDocumentStart i f) [] d).
        { branch; repeat step; reflexivity. }
        intros x p' ->. destruct x; try (apply step_err; [exact S|exact I]).
        do 3 (step; step). step.
        split; [split; [reflexivity|discriminate]|].
        unfold lang; cbn. intros w (u & v & Hu & (j & x & Hx & ->) & ->).
        eexists ((EvDocumentStart _ false :: u ++ [EvDocumentEnd j]) ++ x).
        repeat split; [|intros _; discriminate|].
        - constructor; [|exact Hx]. destruct Hu as [->|Hu]; constructor; exact Hu.
        - cbn. rewrite <- !app_assoc. reflexivity. }
      branch; try exact E.
      branch.
      + step. step; try (apply step_err; [exact S|exact I]).
        do 2 (step; step). step.
        split; [split; [reflexivity|discriminate]|].
        unfold lang; cbn. intros w (j & x & Hx & ->).
        eexists ([EvDocumentStart _ true; EvDocumentEnd j] ++ x).
        repeat split; [|intros _; discriminate].
        constructor; [constructor|exact Hx].
      + step. step. step.
        split; [split; [reflexivity|discriminate]|].
        unfold lang; cbn. intros w ->. exists [].
        repeat split; [constructor|discriminate].
  Qed.

  (** Every transition from a state of the right shape. *)
  Lemma transition_ok p :
    shape p -> ps_done p = false ->
    always (state_transition R T debug) p (step_ok p).
  Proof.
    destruct p as [s st d dn]; cbn [ps_done]; intros [Hs _] ->.
    unfold shape_of in Hs; cbn in Hs.
    intros r p' r' x. unfold state_transition, pbind; cbn [ps_top].
    revert r p' r' x.
    destruct s; cbn in Hs; try (subst st);
      match goal with
      | |- forall r p' r' x, ?m _ r = _ -> step_ok ?p x p' => change (always m p (step_ok p))
      end;
      auto using stream_start_ok, stream_end_ok, document_start_ok, document_end_ok,
        explicit_document_content_ok, root_node_ok, block_sequence_entry_ok,
        block_mapping_key_ok, block_mapping_value_ok, flow_sequence_entry_ok,
        flow_sequence_entry_mapping_key_ok, flow_sequence_entry_mapping_value_ok,
        flow_sequence_entry_mapping_end_ok, flow_mapping_key_ok, flow_mapping_value_ok.
  Qed.

  Lemma event_loop_ok n p : shape p -> always (event_loop R T debug n) p
    (fun x p' => step_ok p x p' /\ (x = Ok None -> ps_done p' = true)).
  Proof.
    revert p; induction n as [|n IH]; intros p Hp r p' r' x; cbn [event_loop];
      destruct (ps_done p) eqn:D; intros E.
    - inversion E; subst. split; [split; [assumption|intros w Hw; exact Hw]|auto].
    - inversion E; subst. split; [apply step_err; [assumption|exact I]|discriminate].
    - inversion E; subst. split; [split; [assumption|intros w Hw; exact Hw]|auto].
    - destruct (state_transition R T debug p r) as [[p1 r1] y] eqn:M.
      pose proof (transition_ok p Hp D _ _ _ _ M) as [S1 L1].
      destruct y as [[e|]|e| |]; try (inversion E; subst; split; [split|]; [assumption|assumption|discriminate]).
      destruct (IH p1 S1 _ _ _ _ E) as [[S2 L2] N].
      split; [split; [assumption|]|assumption].
      destruct x as [[e|]|e| |]; auto.
  Qed.

  Lemma next_event_ok p : shape p -> always (next_event T debug) p
    (fun x p' => step_ok p x p' /\ (x = Ok None -> ps_done p' = true)).
  Proof. apply event_loop_ok. Qed.

  Lemma shape0 : shape parser0.
  Proof. split; [reflexivity|discriminate]. Qed.

  Lemma run_lang n p r :
    shape p ->
    let xs := run_events T debug n p r in
    exists rest, lang p (map ev_data (delivered xs) ++ rest) /\
                 (nth_error xs (List.length (delivered xs)) = Some (Ok None) -> rest = []).
  Proof.
    revert p r; induction n as [|n IH]; intros p r Hp; cbn [run_events].
    - cbn. destruct (shape_lang p Hp) as [w Hw]. exists w; split; [exact Hw|discriminate].
    - destruct (next_event T debug p r) as [[p' r'] x] eqn:E.
      destruct (next_event_ok p Hp _ _ _ _ E) as [[Hp' Hx] N].
      cbv zeta.
      destruct x as [[e|]|e| |]; cbn [delivered map app List.length nth_error].
      + destruct (IH p' r' Hp') as (rest & Hl & Hr). exists rest. split; [|exact Hr].
        apply Hx, Hl.
      + exists []. split; [|reflexivity]. apply Hx. unfold lang. rewrite N; reflexivity.
      + destruct (shape_lang p Hp) as [w Hw]. exists w; split; [exact Hw|discriminate].
      + destruct (shape_lang p Hp) as [w Hw]. exists w; split; [exact Hw|discriminate].
      + destruct (shape_lang p Hp) as [w Hw]. exists w; split; [exact Hw|discriminate].
  Qed.
End Run.
