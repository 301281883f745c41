(** The parser implements the translation grammar of [SpecTokens]: it reads every
    derivable stream (completeness) and everything it reads to the end is derivable
    (soundness). *)
From Verif Require Export BaseFacts SpecTokens ParserFacts.

Scheme tn_mut := Induction for t_node Sort Prop
  with ts_mut := Induction for t_slot Sort Prop
  with tv_mut := Induction for t_value Sort Prop
  with tbe_mut := Induction for t_block_entries Sort Prop
  with tbp_mut := Induction for t_block_pairs Sort Prop
  with tfe_mut := Induction for t_flow_entries Sort Prop
  with tfi_mut := Induction for t_flow_entry Sort Prop
  with tfp_mut := Induction for t_flow_pairs Sort Prop
  with tfq_mut := Induction for t_flow_pair Sort Prop.
Combined Scheme t_mutind from tn_mut, ts_mut, tv_mut, tbe_mut, tbp_mut, tfe_mut, tfi_mut,
  tfp_mut, tfq_mut.

Scheme td_mut := Induction for t_documents Sort Prop
  with te_mut := Induction for t_document_end Sort Prop.
Combined Scheme td_mutind from td_mut, te_mut.

Definition wraps (l : list entry) : list maybe_token := map e_wrap l.
Definition knows (D : directives) (known : str -> Prop) : Prop :=
  forall h, known h <-> tag_get (d_tags D) h <> None.

Lemma wraps_cons l t ts : wraps l = t :: ts -> exists m l', l = mkEntry t m :: l' /\ wraps l' = ts.
Proof.
  destruct l as [|[w m] l]; [discriminate|]. intros [= -> <-]. exists m, l; split; reflexivity.
Qed.

Lemma ahead_wraps l ts m : wraps l = ts -> ahead ts = Some m ->
  exists x l', l = x :: l' /\ e_marker x = m.
Proof. intros <-. destruct l as [|x l]; [discriminate|]. intros [= <-]. exists x, l; auto. Qed.

(** Membership in a list of markers, by cases. *)
Ltac in_cases :=
  unfold directive_markers, document_markers; cbn [In starters app]; intuition congruence.

Section Complete.
  Variable debug : bool.
  Notation L := list_source.
  Notation E := (list entry).

  Definition step (p : parser) (l : E) (d : event_data) (p' : parser) (l' : E) : Prop :=
    exists e, next_event L debug p l = (p', l', Ok (Some e)) /\ ev_data e = d.

  Inductive steps : parser -> E -> list event_data -> parser -> E -> Prop :=
  | steps_nil p l : steps p l [] p l
  | steps_cons p l d p1 l1 ds p' l' :
      step p l d p1 l1 -> steps p1 l1 ds p' l' -> steps p l (d :: ds) p' l'.

  Lemma steps_app p l a p1 l1 b p' l' :
    steps p l a p1 l1 -> steps p1 l1 b p' l' -> steps p l (a ++ b) p' l'.
  Proof. induction 1; intros; cbn; [assumption|]. econstructor; eauto. Qed.

  Lemma next_of_transition p l p' l' e :
    ps_done p = false ->
    state_transition E L debug p l = (p', l', Ok (Some e)) ->
    next_event L debug p l = (p', l', Ok (Some e)).
  Proof. intros H E. unfold next_event; cbn [event_loop]. rewrite H, E. reflexivity. Qed.

  Lemma step_of_transition p l p' l' e d :
    ps_done p = false ->
    state_transition E L debug p l = (p', l', Ok (Some e)) -> ev_data e = d ->
    step p l d p' l'.
  Proof. intros; exists e; split; [apply next_of_transition|]; assumption. Qed.

  (** ** The parts of a node *)
  Lemma properties_ok ts a g rest : t_props ts a g rest ->
    forall x l p m, wraps (x :: l) = ts ->
    exists s l', properties E L m (e_marker x) p (x :: l) = (p, l', Ok (s, a, g))
                 /\ wraps l' = rest.
  Proof.
    intros H x l p m W. destruct H as [ts H|a ts H|h s ts H|a h s ts|a h s ts].
    - rewrite <- W in H. destruct H as (m' & A & N). cbn in A. injection A as A.
      exists m, (x :: l). split; [|exact W]. unfold e_marker; rewrite A.
      destruct m'; try reflexivity; destruct N; in_cases.
    - destruct (wraps_cons _ _ _ W) as (mx & l0 & [= -> ->] & W').
      destruct H as (m' & A & N). destruct (ahead_wraps _ _ _ W' A) as (y & l1 & -> & M).
      exists mx, (y :: l1). split; [|exact W'].
      cbn. unfold fetch_tag, peek_opt, pbind; cbn. rewrite M.
      destruct m'; try reflexivity; destruct N; in_cases.
    - destruct (wraps_cons _ _ _ W) as (mx & l0 & [= -> ->] & W').
      destruct H as (m' & A & N). destruct (ahead_wraps _ _ _ W' A) as (y & l1 & -> & M).
      exists mx, (y :: l1). split; [|exact W'].
      cbn. unfold fetch_anchor, peek_opt, pbind; cbn. rewrite M.
      destruct m'; try reflexivity; destruct N; in_cases.
    - destruct (wraps_cons _ _ _ W) as (mx & l0 & [= -> ->] & W').
      destruct (wraps_cons _ _ _ W') as (my & l1 & -> & W'').
      exists my, l1; split; [reflexivity|exact W''].
    - destruct (wraps_cons _ _ _ W) as (mx & l0 & [= -> ->] & W').
      destruct (wraps_cons _ _ _ W') as (my & l1 & -> & W'').
      exists my, l1; split; [reflexivity|exact W''].
  Qed.

  Lemma non_specific_dec h s :
    str_eqb (cow_str h) (bytes "!") && is_empty (cow_str s) = true <-> non_specific h s.
  Proof.
    unfold non_specific. rewrite andb_true_iff, str_eqb_eq.
    destruct (cow_str s); cbn; intuition congruence.
  Qed.

  Lemma validate_ok D known scalar g g' a k :
    knows D known -> t_tag known scalar g g' ->
    validate_tag (d_tags D) (mkNode a g k) scalar = Ok (mkNode a g' k).
  Proof.
    intros K H. destruct H as [|h s -> H|h s H Hk]; unfold validate_tag; cbn [n_tag n_anchor n_kind].
    - reflexivity.
    - apply non_specific_dec in H. rewrite H. reflexivity.
    - destruct (scalar && _) eqn:B.
      + apply andb_prop in B. destruct B as [-> B]. apply non_specific_dec in B.
        destruct H; auto.
      + apply K in Hk. destruct (tag_get _ _); [reflexivity|congruence].
  Qed.

  Variable known : str -> Prop.
  Variable D : directives.
  Hypothesis K : knows D known.

  Notation mk s st := (mkParser s st D false).

  (** [parse_node] reads the node: the first event at once, the others in the
      following steps, after which the state below is on top. *)
  Definition node_c (b : bool) (k : node_kind) (ts : list maybe_token)
    (evs : list event_data) (rest : list maybe_token) : Prop :=
    forall top s st l, wraps l = ts ->
    exists e p1 l1 ds l',
      parse_node E L b k (mk top (s :: st)) l = (p1, l1, Ok (Some e)) /\
      evs = ev_data e :: ds /\ steps p1 l1 ds (mk s st) l' /\ wraps l' = rest.

  Definition slot_c (stop : list marker) (b : bool) (k : node_kind) (ts : list maybe_token)
    (evs : list event_data) (rest : list maybe_token) : Prop :=
    (ahead_in ts stop /\ evs = [absent k] /\ rest = ts) \/
    (ahead_not ts stop /\ node_c b k ts evs rest).

  Definition value_c (stop : list marker) (b : bool) (ts : list maybe_token)
    (evs : list event_data) (rest : list maybe_token) : Prop :=
    (exists ts', ts = Tok TValue :: ts' /\ slot_c stop b Value ts' evs rest) \/
    (ahead_not ts [MValue] /\ evs = [absent Value] /\ rest = ts).

  (** The tokens seen by a state that may still have to skip the start token. *)
  Definition fronted (f : bool) (t : token) (l0 l : E) : Prop :=
    if f then exists m, l0 = mkEntry (Tok t) m :: l else l0 = l.

  (** The state [s] reads [ts] and is then replaced by the state below. *)
  Definition run_c (s : state) (f : bool) (t : token) (ts : list maybe_token)
    (evs : list event_data) (rest : list maybe_token) : Prop :=
    forall s' st l0 l, wraps l = ts -> fronted f t l0 l ->
    exists l', steps (mk s (s' :: st)) l0 evs (mk s' st) l' /\ wraps l' = rest.

  Definition flow_entry_c (ts : list maybe_token)
    (evs : list event_data) (rest : list maybe_token) : Prop :=
    (ahead_not ts [MKey; MFlowSequenceEnd] /\ node_c false Entry ts evs rest) \/
    (exists ts' k ts1 v, ts = Tok TKey :: ts' /\
       evs = EvMappingStart (mkNode None None Entry) :: k ++ v ++ [EvMappingEnd] /\
       slot_c [MValue; MFlowEntry; MFlowSequenceEnd] false Key ts' k ts1 /\
       value_c [MFlowEntry; MFlowSequenceEnd] false ts1 v rest).

  Definition flow_pair_c (ts : list maybe_token)
    (evs : list event_data) (rest : list maybe_token) : Prop :=
    (exists k, ahead_not ts [MKey; MFlowMappingEnd] /\ node_c false Key ts k rest /\
       rest <> [] /\ evs = k ++ [absent Value]) \/
    (exists ts' k ts1 v, ts = Tok TKey :: ts' /\
       evs = k ++ v /\
       slot_c [MValue; MFlowEntry; MFlowMappingEnd] false Key ts' k ts1 /\
       value_c [MFlowEntry; MFlowMappingEnd] false ts1 v rest).

  (** What [parse_node] does after the properties. *)
  Lemma parse_node_props b k ts a g rest p l t rest' :
    t_props ts a g rest -> rest = t :: rest' -> wraps l = ts -> maybe_marker t <> MAlias \/ a <> None \/ g <> None ->
    exists s m l', wraps l' = rest' /\
      parse_node E L b k p l =
      node_variant E L b s m (mkNode a g k) (maybe_marker t) p (mkEntry t m :: l').
  Proof.
    intros H -> W N.
    destruct l as [|x l].
    { exfalso. cbn in W; subst ts. inversion H. }
    destruct (properties_ok _ _ _ _ H x l p (e_read x) W) as (s & l' & P & W').
    destruct (wraps_cons _ _ _ W') as (m & l1 & -> & W1).
    exists s, m, l1. split; [exact W1|].
    assert (A : e_marker x <> MAlias).
    { destruct x as [w mx]. change (e_marker (mkEntry w mx)) with (maybe_marker w).
      cbn in W; rewrite <- W in H. inversion H; subst; try discriminate.
      destruct N as [N|[N|N]]; congruence. }
    unfold parse_node, node_content. unfold peek at 1, peek_opt at 1, pbind at 1 2. cbn [ts_look L map_err hd_error].
    assert (Q : forall X, match e_marker x with MAlias => X
                | _ => pbind E (properties E L (e_read x) (e_marker x)) (fun '(start, anchor, tag) =>
                    pbind E (peek E L) (fun '(end_, t) =>
                    node_variant E L b start end_ (mkNode anchor tag k) t)) end p (x :: l) =
              pbind E (properties E L (e_read x) (e_marker x)) (fun '(start, anchor, tag) =>
                    pbind E (peek E L) (fun '(end_, t) =>
                    node_variant E L b start end_ (mkNode anchor tag k) t)) p (x :: l)).
    { intros X. destruct (e_marker x); congruence. }
    etransitivity; [apply Q|].
    unfold pbind at 1. rewrite P. reflexivity.
  Qed.

  Lemma checked_ok s e a g g' k scalar (mkd : node -> event_data) top st l :
    t_tag known scalar g g' ->
    checked E s e (mkNode a g k) scalar mkd (mk top st) l =
    (mk top st, l, Ok (Some (mkEvent s e (mkd (mkNode a g' k))))).
  Proof. intros H. unfold checked. cbn [ps_dirs]. rewrite (validate_ok _ _ _ _ _ _ _ K H). reflexivity. Qed.

  (** ** Nodes *)
  Lemma node_alias_c b k n ts : node_c b k (Tok (TAlias n) :: ts) [EvAlias n] ts.
  Proof.
    intros top s st l W. destruct (wraps_cons _ _ _ W) as (m & l' & -> & W').
    exists (mkEvent m m (EvAlias n)), (mk s st), l', [], l'.
    repeat split; [constructor|exact W'].
  Qed.

  Lemma node_scalar_c b k ts a g g' t st rest :
    t_props ts a g (Tok (TScalar t st) :: rest) -> t_tag known true g g' ->
    node_c b k ts [EvScalar (mkNode a g' k) (Eager t st)] rest.
  Proof.
    intros H G top s sk l W.
    destruct (parse_node_props b k _ _ _ _ (mk top (s :: sk)) l _ _ H eq_refl W)
      as (s1 & m & l' & W' & E); [left; discriminate|].
    exists (mkEvent s1 m (EvScalar (mkNode a g' k) (Eager t st))), (mk s sk), l', [], l'.
    repeat split; [|constructor|exact W'].
    rewrite E. cbn [maybe_marker token_marker node_variant].
    refine (checked_ok s1 m a g g' k true (fun n => EvScalar n (Eager t st)) s sk l' G).
  Qed.

  Lemma node_lazy_c b k ts a g g' d rest :
    t_props ts a g (Lazy d :: rest) -> t_tag known true g g' ->
    node_c b k ts [EvScalar (mkNode a g' k) (LazyS d)] rest.
  Proof.
    intros H G top s sk l W.
    destruct (parse_node_props b k _ _ _ _ (mk top (s :: sk)) l _ _ H eq_refl W)
      as (s1 & m & l' & W' & E); [left; discriminate|].
    exists (mkEvent s1 m (EvScalar (mkNode a g' k) (LazyS d))), (mk s sk), l', [], l'.
    repeat split; [|constructor|exact W'].
    rewrite E. cbn [maybe_marker token_marker node_variant].
    refine (checked_ok s1 m a g g' k true (fun n => EvScalar n (LazyS d)) s sk l' G).
  Qed.

  Lemma node_empty_c b k ts a g g' rest :
    t_props ts a g rest -> a <> None \/ g <> None -> ahead_not rest (starters b) ->
    t_tag known true g g' ->
    node_c b k ts [EvScalar (mkNode a g' k) empty_scalar_like] rest.
  Proof.
    intros H N (m' & A & Hm) G top s sk l W.
    destruct rest as [|t rest]; [discriminate|]. injection A as A.
    destruct (parse_node_props b k _ _ _ _ (mk top (s :: sk)) l _ _ H eq_refl W)
      as (s1 & m & l' & W' & E); [right; exact N|].
    exists (mkEvent s1 m (EvScalar (mkNode a g' k) empty_scalar_like)), (mk s sk),
      (mkEntry t m :: l'), [], (mkEntry t m :: l').
    repeat split; [|constructor|cbn; rewrite <- W'; reflexivity].
    rewrite E, A. clear E.
    assert (Q : node_empty E s1 m (mkNode a g k) (mk top (s :: sk)) (mkEntry t m :: l') =
      (mk s sk, mkEntry t m :: l',
        Ok (Some (mkEvent s1 m (EvScalar (mkNode a g' k) empty_scalar_like))))).
    { rewrite <- (checked_ok s1 m a g g' k true (fun n => EvScalar n empty_scalar_like) s sk _ G).
      unfold node_empty. cbn [n_anchor n_tag]. destruct a, g; try reflexivity.
      destruct N; congruence. }
    destruct b, m'; cbn [node_variant]; try exact Q; destruct Hm; in_cases.
  Qed.

  Lemma node_start_c b k ts a g g' t ts1 evs rest s1 mkd :
    t_props ts a g (Tok t :: ts1) -> t_tag known false g g' ->
    token_marker t <> MAlias ->
    (forall start m n l top st,
       node_variant E L b start m n (token_marker t) (mk top st) l =
       checked E start m n false mkd (mk s1 st) l) ->
    run_c s1 true t ts1 evs rest ->
    node_c b k ts (mkd (mkNode a g' k) :: evs) rest.
  Proof.
    intros H G A V Hr top s sk l W.
    destruct (parse_node_props b k _ _ _ _ (mk top (s :: sk)) l _ _ H eq_refl W)
      as (s0 & m & l' & W' & E); [left; exact A|].
    destruct (Hr s sk (mkEntry (Tok t) m :: l') l' W' ltac:(exists m; reflexivity))
      as (l2 & S & W2).
    exists (mkEvent s0 m (mkd (mkNode a g' k))), (mk s1 (s :: sk)),
      (mkEntry (Tok t) m :: l'), evs, l2.
    repeat split; [|exact S|exact W2].
    rewrite E. change (maybe_marker (Tok t)) with (token_marker t). rewrite V.
    apply checked_ok, G.
  Qed.

  (** ** Slots *)
  Lemma slot_run stop b k ts evs rest s st nx l0 l :
    slot_c stop b k ts evs rest -> wraps l = ts ->
    (forall x l', l = x :: l' -> In (e_marker x) stop ->
       exists m, state_transition E L debug (mk s st) l0 =
                 (mk nx st, l, Ok (Some (mkEvent m m (absent k))))) ->
    (forall x l', l = x :: l' -> ~ In (e_marker x) stop ->
       exists top, state_transition E L debug (mk s st) l0 =
                   parse_node E L b k (mk top (nx :: st)) l) ->
    exists l', steps (mk s st) l0 evs (mk nx st) l' /\ wraps l' = rest.
  Proof.
    intros [((m & A & I) & -> & ->)|((m & A & I) & N)] W H1 H2;
      destruct (ahead_wraps _ _ _ W A) as (x & l' & -> & <-).
    - destruct (H1 _ _ eq_refl I) as (m & E). exists (x :: l'). split; [|exact W].
      econstructor; [|constructor]. eapply step_of_transition; [reflexivity|exact E|reflexivity].
    - destruct (H2 _ _ eq_refl I) as (top & E).
      destruct (N top nx st _ W) as (e & p1 & l1 & ds & l2 & E' & -> & S & W').
      exists l2; split; [|exact W'].
      econstructor; [|exact S]. eapply step_of_transition; [reflexivity| |reflexivity].
      rewrite E; exact E'.
  Qed.

  Lemma value_run stop b ts evs rest s st nx l :
    value_c stop b ts evs rest -> wraps l = ts ->
    (forall x l', l = x :: l' -> e_marker x <> MValue ->
       exists m, state_transition E L debug (mk s st) l =
                 (mk nx st, l, Ok (Some (mkEvent m m (absent Value))))) ->
    (forall m x l', l = mkEntry (Tok TValue) m :: x :: l' -> In (e_marker x) stop ->
       exists m, state_transition E L debug (mk s st) l =
                 (mk nx st, x :: l', Ok (Some (mkEvent m m (absent Value))))) ->
    (forall m x l', l = mkEntry (Tok TValue) m :: x :: l' -> ~ In (e_marker x) stop ->
       exists top, state_transition E L debug (mk s st) l =
                   parse_node E L b Value (mk top (nx :: st)) (x :: l')) ->
    exists l', steps (mk s st) l evs (mk nx st) l' /\ wraps l' = rest.
  Proof.
    intros [(ts' & -> & H)|((m & A & I) & -> & ->)] W H1 H2 H3.
    - destruct (wraps_cons _ _ _ W) as (m & l' & -> & W').
      apply (slot_run _ _ _ _ _ _ s st nx _ l' H W').
      + intros x l'' -> I. destruct (H2 _ _ _ eq_refl I) as (m' & E). exists m'; exact E.
      + intros x l'' -> I. exact (H3 _ _ _ eq_refl I).
    - destruct (ahead_wraps _ _ _ W A) as (x & l' & -> & <-).
      destruct (H1 _ _ eq_refl) as (m & E); [intros Hx; apply I; left; symmetry; exact Hx|].
      exists (x :: l'); split; [|exact W].
      econstructor; [|constructor]. eapply step_of_transition; [reflexivity|exact E|reflexivity].
  Qed.

  (** Decide a transition by the markers of the tokens in front. *)
  Ltac by_marker x :=
    unfold state_transition, block_sequence_entry, block_mapping_key, block_mapping_value,
      flow_sequence_entry, flow_sequence_entry_mapping_key, flow_sequence_entry_mapping_value,
      flow_sequence_entry_mapping_end, flow_mapping_key, flow_mapping_value, fetch_end,
      debug_assert, pbind, pret, pupd, pop, peek, peek_opt, empty_scalar, deliver;
    cbn -[parse_node]; rewrite ?andb_false_r; cbn -[parse_node];
    try (destruct (e_marker x) eqn:?M; cbn -[parse_node] in *; try (intuition congruence));
    try (eexists; reflexivity).

  (** ** Block collections *)
  Lemma block_entries_end_c f ts :
    run_c (StBlockSequenceEntry f) f TBlockSequenceStart (Tok TBlockEnd :: ts) [EvSequenceEnd] ts.
  Proof.
    intros s' st l0 l W F. destruct (wraps_cons _ _ _ W) as (m & l' & -> & W').
    exists l'; split; [|exact W'].
    econstructor; [|constructor].
    destruct f; [destruct F as (m' & ->)|cbn in F; subst l0];
    eapply (step_of_transition _ _ _ _ (mkEvent m m EvSequenceEnd)); try reflexivity.
    by_marker m. 
  Qed.

  Lemma block_entries_entry_c f ts e ts1 evs rest :
    slot_c [MBlockEntry; MBlockEnd] true Entry ts e ts1 ->
    run_c (StBlockSequenceEntry false) false TBlockSequenceStart ts1 evs rest ->
    run_c (StBlockSequenceEntry f) f TBlockSequenceStart (Tok TBlockEntry :: ts) (e ++ evs) rest.
  Proof.
    intros H R s' st l0 l W F. destruct (wraps_cons _ _ _ W) as (m & l' & -> & W').
    assert (Q : exists l2, steps (mk (StBlockSequenceEntry f) (s' :: st)) l0 e
                             (mk (StBlockSequenceEntry false) (s' :: st)) l2 /\ wraps l2 = ts1).
    { destruct f; [destruct F as (m' & ->)|cbn in F; subst l0];
        eapply (slot_run _ _ _ _ _ _ _ _ _ _ _ H W'); intros x l2 -> I; by_marker x. }
    destruct Q as (l2 & S & W2).
    destruct (R s' st l2 l2 W2 eq_refl) as (l3 & S3 & W3).
    exists l3; split; [|exact W3]. eapply steps_app; eassumption.
  Qed.

  Lemma block_pairs_end_c f ts :
    run_c (StBlockMappingKey f) f TBlockMappingStart (Tok TBlockEnd :: ts) [EvMappingEnd] ts.
  Proof.
    intros s' st l0 l W F. destruct (wraps_cons _ _ _ W) as (m & l' & -> & W').
    exists l'; split; [|exact W'].
    econstructor; [|constructor].
    destruct f; [destruct F as (m' & ->)|cbn in F; subst l0];
    eapply (step_of_transition _ _ _ _ (mkEvent m m EvMappingEnd)); try reflexivity.
    by_marker m.
  Qed.

  Lemma block_pairs_pair_c f ts k ts1 v ts2 evs rest :
    slot_c [MKey; MValue; MBlockEnd] true Key ts k ts1 ->
    value_c [MKey; MValue; MBlockEnd] true ts1 v ts2 ->
    run_c (StBlockMappingKey false) false TBlockMappingStart ts2 evs rest ->
    run_c (StBlockMappingKey f) f TBlockMappingStart (Tok TKey :: ts) (k ++ v ++ evs) rest.
  Proof.
    intros Hk Hv R s' st l0 l W F. destruct (wraps_cons _ _ _ W) as (m & l' & -> & W').
    assert (Q : exists l2, steps (mk (StBlockMappingKey f) (s' :: st)) l0 k
                             (mk StBlockMappingValue (s' :: st)) l2 /\ wraps l2 = ts1).
    { destruct f; [destruct F as (m' & ->)|cbn in F; subst l0];
        eapply (slot_run _ _ _ _ _ _ _ _ _ _ _ Hk W'); intros x l2 -> I; by_marker x. }
    destruct Q as (l2 & S & W2).
    assert (Q : exists l3, steps (mk StBlockMappingValue (s' :: st)) l2 v
                             (mk (StBlockMappingKey false) (s' :: st)) l3 /\ wraps l3 = ts2).
    { eapply (value_run _ _ _ _ _ _ _ _ _ Hv W2).
      - intros x l3 -> I; by_marker x.
      - intros m' x l3 -> I; by_marker x.
      - intros m' x l3 -> I; by_marker x. }
    destruct Q as (l3 & S3 & W3).
    destruct (R s' st l3 l3 W3 eq_refl) as (l4 & S4 & W4).
    exists l4; split; [|exact W4]. eapply steps_app; [eassumption|]. eapply steps_app; eassumption.
  Qed.

  (** ** Flow collections *)
  Lemma flow_entries_end_c f ts :
    run_c (StFlowSequenceEntry f) f TFlowSequenceStart (Tok TFlowSequenceEnd :: ts)
      [EvSequenceEnd] ts.
  Proof.
    intros s' st l0 l W F. destruct (wraps_cons _ _ _ W) as (m & l' & -> & W').
    exists l'; split; [|exact W'].
    econstructor; [|constructor].
    destruct f; [destruct F as (m' & ->)|cbn in F; subst l0];
    eapply (step_of_transition _ _ _ _ (mkEvent m m EvSequenceEnd)); try reflexivity.
    by_marker m.
  Qed.

  Lemma flow_entries_trailing_c ts :
    run_c (StFlowSequenceEntry false) false TFlowSequenceStart
      (Tok TFlowEntry :: Tok TFlowSequenceEnd :: ts) [EvSequenceEnd] ts.
  Proof.
    intros s' st l0 l W F. destruct (wraps_cons _ _ _ W) as (m & l' & -> & W').
    destruct (wraps_cons _ _ _ W') as (m' & l2 & -> & W2).
    exists l2; split; [|exact W2].
    econstructor; [|constructor]. cbn in F; subst l0.
    eapply (step_of_transition _ _ _ _ (mkEvent m' m' EvSequenceEnd)); reflexivity.
  Qed.

  (** What a flow entry looks like behind an optional separator. *)
  Lemma flow_entry_run (f : bool) ts e ts1 evs rest s' st (l0 l : E) :
    flow_entry_c ts e ts1 -> wraps l = ts ->
    (if f then exists m, l0 = mkEntry (Tok TFlowSequenceStart) m :: l
     else exists m, l0 = mkEntry (Tok TFlowEntry) m :: l) ->
    ahead_in ts1 [MFlowEntry; MFlowSequenceEnd] ->
    run_c (StFlowSequenceEntry false) false TFlowSequenceStart ts1 evs rest ->
    exists l', steps (mk (StFlowSequenceEntry f) (s' :: st)) l0 (e ++ evs) (mk s' st) l'
               /\ wraps l' = rest.
  Proof.
    intros [((m & A & I) & N)|(ts' & k & ts2 & v & -> & -> & Hk & Hv)] W F Hn R.
    - destruct (ahead_wraps _ _ _ W A) as (x & l' & -> & <-).
      destruct (N (StFlowSequenceEntry f) (StFlowSequenceEntry false) (s' :: st) _ W)
        as (e1 & p1 & l1 & ds & l2 & E' & -> & S & W').
      destruct (R s' st l2 l2 W' eq_refl) as (l3 & S3 & W3).
      exists l3; split; [|exact W3].
      cbn [app]. econstructor; [|eapply steps_app; eassumption].
      eapply step_of_transition; [reflexivity| |reflexivity].
      rewrite <- E'.
      destruct f; destruct F as (m & ->); cbn [In] in I;
        unfold state_transition, flow_sequence_entry, debug_assert, pbind, pret, pupd, pop,
          peek, peek_opt; cbn -[parse_node]; rewrite ?andb_false_r; cbn -[parse_node];
        unfold e_marker in *; destruct (maybe_marker (e_wrap x)) eqn:M; cbn -[parse_node]; rewrite ?M; try reflexivity; exfalso; intuition congruence.
    - destruct (wraps_cons _ _ _ W) as (m & l' & -> & W').
      assert (Q0 : step (mk (StFlowSequenceEntry f) (s' :: st)) l0
                     (EvMappingStart (mkNode None None Entry))
                     (mk StFlowSequenceMappingKey (s' :: st)) l').
      { destruct f; destruct F as (m' & ->);
        eapply (step_of_transition _ _ _ _ (mkEvent m m _)); try reflexivity.
        by_marker m. }
      assert (Q : exists l2, steps (mk StFlowSequenceMappingKey (s' :: st)) l' k
                     (mk StFlowSequenceMappingValue (s' :: st)) l2 /\ wraps l2 = ts2).
      { eapply (slot_run _ _ _ _ _ _ _ _ _ _ _ Hk W'); intros x l2 -> I; by_marker x. }
      destruct Q as (l2 & S2 & W2).
      assert (Q : exists l3, steps (mk StFlowSequenceMappingValue (s' :: st)) l2 v
                     (mk StFlowSequenceMappingEnd (s' :: st)) l3 /\ wraps l3 = ts1).
      { eapply (value_run _ _ _ _ _ _ _ _ _ Hv W2).
        - intros x l3 -> I; by_marker x.
        - intros m' x l3 -> I; by_marker x.
        - intros m' x l3 -> I; by_marker x. }
      destruct Q as (l3 & S3 & W3).
      assert (Q1 : step (mk StFlowSequenceMappingEnd (s' :: st)) l3 EvMappingEnd
                     (mk (StFlowSequenceEntry false) (s' :: st)) l3).
      { destruct Hn as (m' & A & I). destruct (ahead_wraps _ _ _ W3 A) as (x & l4 & -> & <-).
        eapply (step_of_transition _ _ _ _ (mkEvent (e_read x) (e_read x) _)); try reflexivity.
        unfold state_transition, flow_sequence_entry_mapping_end, debug_assert, pbind, pret,
          pupd, peek, peek_opt; cbn.
        destruct (e_marker x) eqn:M; cbn in *; rewrite ?andb_false_r; cbn; try reflexivity;
          exfalso; intuition congruence. }
      destruct (R s' st l3 l3 W3 eq_refl) as (l4 & S4 & W4).
      exists l4; split; [|exact W4].
      cbn [app]. econstructor; [exact Q0|]. rewrite <- !app_assoc.
      eapply steps_app; [exact S2|]. eapply steps_app; [exact S3|].
      cbn [app]. econstructor; [exact Q1|exact S4].
  Qed.

  Lemma flow_pairs_end_c f ts :
    run_c (StFlowMappingKey f) f TFlowMappingStart (Tok TFlowMappingEnd :: ts)
      [EvMappingEnd] ts.
  Proof.
    intros s' st l0 l W F. destruct (wraps_cons _ _ _ W) as (m & l' & -> & W').
    exists l'; split; [|exact W'].
    econstructor; [|constructor].
    destruct f; [destruct F as (m' & ->)|cbn in F; subst l0];
    eapply (step_of_transition _ _ _ _ (mkEvent m m EvMappingEnd)); try reflexivity.
    by_marker m.
  Qed.

  Lemma flow_pairs_trailing_c ts :
    run_c (StFlowMappingKey false) false TFlowMappingStart
      (Tok TFlowEntry :: Tok TFlowMappingEnd :: ts) [EvMappingEnd] ts.
  Proof.
    intros s' st l0 l W F. destruct (wraps_cons _ _ _ W) as (m & l' & -> & W').
    destruct (wraps_cons _ _ _ W') as (m' & l2 & -> & W2).
    exists l2; split; [|exact W2].
    econstructor; [|constructor]. cbn in F; subst l0.
    eapply (step_of_transition _ _ _ _ (mkEvent m' m' EvMappingEnd)); reflexivity.
  Qed.

  Lemma flow_pair_run (f : bool) ts e ts1 evs rest s' st (l0 l : E) :
    flow_pair_c ts e ts1 -> wraps l = ts ->
    (if f then exists m, l0 = mkEntry (Tok TFlowMappingStart) m :: l
     else exists m, l0 = mkEntry (Tok TFlowEntry) m :: l) ->
    run_c (StFlowMappingKey false) false TFlowMappingStart ts1 evs rest ->
    exists l', steps (mk (StFlowMappingKey f) (s' :: st)) l0 (e ++ evs) (mk s' st) l'
               /\ wraps l' = rest.
  Proof.
    intros [(k & (m & A & I) & N & Hr & ->)|(ts' & k & ts2 & v & -> & -> & Hk & Hv)] W F R.
    - destruct (ahead_wraps _ _ _ W A) as (x & l' & -> & <-).
      destruct (N (StFlowMappingKey f) (StFlowMappingValue true) (s' :: st) _ W)
        as (e1 & p1 & l1 & ds & l2 & E' & -> & S & W').
      assert (Q : step (mk (StFlowMappingValue true) (s' :: st)) l2 (absent Value)
                    (mk (StFlowMappingKey false) (s' :: st)) l2).
      { destruct l2 as [|y l2]; [cbn in W'; congruence|].
        eapply (step_of_transition _ _ _ _ (mkEvent (e_read y) (e_read y) (absent Value))); reflexivity. }
      destruct (R s' st l2 l2 W' eq_refl) as (l3 & S3 & W3).
      exists l3; split; [|exact W3].
      cbn [app]. rewrite <- app_assoc. cbn [app].
      econstructor; [|eapply steps_app; [exact S|econstructor; [exact Q|exact S3]]].
      eapply step_of_transition; [reflexivity| |reflexivity].
      rewrite <- E'.
      destruct f; destruct F as (m & ->); cbn [In] in I;
        unfold state_transition, flow_mapping_key, debug_assert, pbind, pret, pupd, pop,
          peek, peek_opt; cbn -[parse_node]; rewrite ?andb_false_r; cbn -[parse_node];
        unfold e_marker in *; destruct (maybe_marker (e_wrap x)) eqn:M; cbn -[parse_node]; rewrite ?M; try reflexivity; exfalso; intuition congruence.
    - destruct (wraps_cons _ _ _ W) as (m & l' & -> & W').
      assert (Q : exists l2, steps (mk (StFlowMappingKey f) (s' :: st)) l0 k
                     (mk (StFlowMappingValue false) (s' :: st)) l2 /\ wraps l2 = ts2).
      { destruct f; destruct F as (m' & ->);
        eapply (slot_run _ _ _ _ _ _ _ _ _ _ _ Hk W'); intros x l2 -> I; by_marker x. }
      destruct Q as (l2 & S2 & W2).
      assert (Q : exists l3, steps (mk (StFlowMappingValue false) (s' :: st)) l2 v
                     (mk (StFlowMappingKey false) (s' :: st)) l3 /\ wraps l3 = ts1).
      { eapply (value_run _ _ _ _ _ _ _ _ _ Hv W2).
        - intros x l3 -> I; by_marker x.
        - intros m' x l3 -> I; by_marker x.
        - intros m' x l3 -> I; by_marker x. }
      destruct Q as (l3 & S3 & W3).
      destruct (R s' st l3 l3 W3 eq_refl) as (l4 & S4 & W4).
      exists l4; split; [|exact W4].
      rewrite <- app_assoc. eapply steps_app; [exact S2|]. eapply steps_app; [exact S3|exact S4].
  Qed.

  Lemma flow_entries_ahead ts evs rest :
    t_flow_entries known false ts evs rest -> ahead_in ts [MFlowEntry; MFlowSequenceEnd].
  Proof. inversion 1; subst; eexists; (split; [reflexivity|cbn; auto]). Qed.

  Lemma nodes_complete :
    (forall b k ts evs rest, t_node known b k ts evs rest -> node_c b k ts evs rest) /\
    (forall stop b k ts evs rest, t_slot known stop b k ts evs rest ->
       slot_c stop b k ts evs rest) /\
    (forall stop b ts evs rest, t_value known stop b ts evs rest ->
       value_c stop b ts evs rest) /\
    (forall ts evs rest, t_block_entries known ts evs rest ->
       forall f, run_c (StBlockSequenceEntry f) f TBlockSequenceStart ts evs rest) /\
    (forall ts evs rest, t_block_pairs known ts evs rest ->
       forall f, run_c (StBlockMappingKey f) f TBlockMappingStart ts evs rest) /\
    (forall f ts evs rest, t_flow_entries known f ts evs rest ->
       run_c (StFlowSequenceEntry f) f TFlowSequenceStart ts evs rest) /\
    (forall ts evs rest, t_flow_entry known ts evs rest -> flow_entry_c ts evs rest) /\
    (forall f ts evs rest, t_flow_pairs known f ts evs rest ->
       run_c (StFlowMappingKey f) f TFlowMappingStart ts evs rest) /\
    (forall ts evs rest, t_flow_pair known ts evs rest -> flow_pair_c ts evs rest).
  Proof.
    apply t_mutind.
    - intros; apply node_alias_c.
    - intros; eapply node_scalar_c; eassumption.
    - intros; eapply node_lazy_c; eassumption.
    - intros; eapply node_empty_c; eassumption.
    - intros; eapply (node_start_c _ _ _ _ _ _ _ _ _ _ (StFlowSequenceEntry true) EvSequenceStart);
        try eassumption; [discriminate|reflexivity].
    - intros; eapply (node_start_c _ _ _ _ _ _ _ _ _ _ (StFlowMappingKey true) EvMappingStart);
        try eassumption; [discriminate|reflexivity].
    - intros; eapply (node_start_c _ _ _ _ _ _ _ _ _ _ (StBlockSequenceEntry true) EvSequenceStart);
        try eassumption; [discriminate|reflexivity|auto].
    - intros; eapply (node_start_c _ _ _ _ _ _ _ _ _ _ (StBlockMappingKey true) EvMappingStart);
        try eassumption; [discriminate|reflexivity|auto].
    - intros; left; auto.
    - intros; right; auto.
    - intros; left; eauto.
    - intros; right; auto.
    - intros; apply block_entries_end_c.
    - intros; eapply block_entries_entry_c; eauto.
    - intros; apply block_pairs_end_c.
    - intros; eapply block_pairs_pair_c; eauto.
    - intros; apply flow_entries_end_c.
    - intros; apply flow_entries_trailing_c.
    - intros ts e ts1 evs rest Ht1 IH1 Ht2 IH2 s' st l0 l W F.
      eapply (flow_entry_run true); eauto using flow_entries_ahead.
    - intros ts e ts1 evs rest Ht1 IH1 Ht2 IH2 s' st l0 l W F.
      destruct (wraps_cons _ _ _ W) as (m & l' & -> & W'). cbn in F; subst l0.
      eapply (flow_entry_run false); eauto using flow_entries_ahead.
    - intros; left; auto.
    - intros; right; do 4 eexists; repeat split; eauto.
    - intros; apply flow_pairs_end_c.
    - intros; apply flow_pairs_trailing_c.
    - intros ts e ts1 evs rest Ht1 IH1 Ht2 IH2 s' st l0 l W F.
      eapply (flow_pair_run true); eauto.
    - intros ts e ts1 evs rest Ht1 IH1 Ht2 IH2 s' st l0 l W F.
      destruct (wraps_cons _ _ _ W) as (m & l' & -> & W'). cbn in F; subst l0.
      eapply (flow_pair_run false); eauto.
    - intros; right; do 4 eexists; repeat split; eauto.
    - intros; left; eauto 10.
  Qed.
End Complete.
