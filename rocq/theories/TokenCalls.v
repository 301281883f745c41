(** Every event stands for the tokens its call consumed. *)
From Verif Require Export SpecCalls TokenSound.

Lemma t_props_written ts a g rest :
  t_props ts a g rest -> exists ps, ts = ps ++ rest /\ written ps a g.
Proof.
  intros H; destruct H; eexists; split;
    [ instantiate (1 := []); reflexivity | constructor
    | instantiate (1 := [_]); reflexivity | constructor
    | instantiate (1 := [_]); reflexivity | constructor
    | instantiate (1 := [_; _]); reflexivity | constructor
    | instantiate (1 := [_; _]); reflexivity | constructor ].
Qed.

Lemma t_tag_delivered known scalar g g' : t_tag known scalar g g' -> g' = delivered_tag scalar g.
Proof.
  intros [|h s -> [H1 H2]|h s N K]; unfold delivered_tag; [reflexivity| |].
  - rewrite H1, H2, !str_eqb_refl. reflexivity.
  - destruct (scalar && _) eqn:B; [|reflexivity]. destruct N.
    apply andb_prop in B; destruct B as [B1 B2]. apply andb_prop in B2; destruct B2 as [B2 B3].
    split; [exact B1|]. split; apply str_eqb_eq; assumption.
Qed.

Section Calls.
  Variable debug : bool.
  Notation L := list_source.
  Notation E := (list entry).

  (** The token a state expects in front of it. *)
  Definition opener (s : state) : option marker :=
    match s with
    | StBlockSequenceEntry true => Some MBlockSequenceStart
    | StBlockMappingKey true => Some MBlockMappingStart
    | StFlowSequenceEntry true => Some MFlowSequenceStart
    | StFlowMappingKey true => Some MFlowMappingStart
    | _ => None
    end.
  Definition at_opener (s : state) (l : E) : Prop :=
    match opener s with
    | Some m => exists x l', l = x :: l' /\ e_marker x = m
    | None => True
    end.
  Definition inv (p : parser) (l : E) : Prop :=
    at_opener (ps_top p) l /\
    (forall f x l', ps_top p = StDocumentStart false f -> l = x :: l' ->
                    e_marker x <> MDocumentEnd) /\
    Forall (fun s => opener s = None /\ forall f, s <> StDocumentStart false f) (ps_stack p).

  (** [m] from [p] and [l] consumed [c]. *)
  Definition consumed_by (l l' : E) (c : list maybe_token) : Prop := wraps l = c ++ wraps l'.

  Variable D : directives.
  Notation mk s st := (mkParser s st D false).
  Definition quiet (s : state) : Prop := opener s = None /\ forall f, s <> StDocumentStart false f.

  Lemma inv_quiet s st l : quiet s -> Forall quiet st -> inv (mk s st) l.
  Proof.
    intros [H1 H2] H3. split; [|split]; cbn [ps_top ps_stack].
    - unfold at_opener. rewrite H1. exact I.
    - intros f x l' Hs. destruct (H2 f Hs).
    - exact H3.
  Qed.

  Lemma node_call b k top s st l p' l' e :
    quiet s -> Forall quiet st ->
    parse_node E L b k (mk top (s :: st)) l = (p', l', Ok (Some e)) ->
    inv p' l' /\ exists c, consumed_by l l' c /\ node_tokens c (ev_data e).
  Proof.
    intros Q F H. destruct l as [|x l]; [discriminate|].
    assert (C : (exists n m, x = mkEntry (Tok (TAlias n)) m) \/
                node_content E L b k (e_read x) (e_marker x) (mk top (s :: st)) (x :: l)
                = (p', l', Ok (Some e))).
    { destruct x as [[[]|d] m]; (left; eauto; fail) || (right; exact H). }
    destruct C as [(n & m & ->)|C].
    { cbn in H. injection H as <- <- <-. split; [apply inv_quiet; assumption|].
      exists [Tok (TAlias n)]. split; [reflexivity|constructor]. }
    clear H. unfold node_content, pbind at 1 in C.
    destruct (properties E L (e_read x) (e_marker x) (mk top (s :: st)) (x :: l))
      as [[p1 l1] [[[s0 a] g]| | |]] eqn:Hp; try discriminate.
    destruct l1 as [|y l1]; [unfold pbind, peek, peek_opt, pbind in C; cbn in C; discriminate|].
    apply properties_inv in Hp; [|discriminate]. destruct Hp as [-> Hp].
    apply t_props_written in Hp. destruct Hp as (ps & Hps & Hw).
    unfold pbind at 1, peek, peek_opt, pbind at 1 in C. cbn [L ts_look map_err hd_error pret] in C.
    unfold pret in C. cbn -[node_variant] in C.
    assert (K : knows D (known_in D)) by (intros h; reflexivity).
    assert (NE : node_empty E s0 (e_read y) (mkNode a g k) (mk top (s :: st)) (y :: l1)
                   = (p', l', Ok (Some e)) ->
                 inv p' l' /\ exists c, consumed_by (x :: l) l' c /\ node_tokens c (ev_data e)).
    { clear C. intros C. unfold node_empty in C; cbn [n_anchor n_tag] in C.
      assert (C' : checked E s0 (e_read y) (mkNode a g k) true (fun n => EvScalar n empty_scalar_like)
                     (mk s st) (y :: l1) = (p', l', Ok (Some e))).
      { destruct a, g; try exact C. discriminate C. }
      apply (checked_inv D _ K) in C'; [|reflexivity].
      destruct C' as (-> & -> & g' & -> & T). apply t_tag_delivered in T. subst g'.
      split; [apply inv_quiet; assumption|]. exists ps. split; [exact Hps|]. constructor; exact Hw. }
    assert (OP : forall s1 mkd, checked E s0 (e_read y) (mkNode a g k) false mkd (mk s1 (s :: st)) (y :: l1)
                     = (p', l', Ok (Some e)) ->
                 opener s1 = Some (e_marker y) -> (mkd = EvSequenceStart \/ mkd = EvMappingStart) ->
                 inv p' l' /\ exists c, consumed_by (x :: l) l' c /\ node_tokens c (ev_data e)).
    { clear C. intros s1 mkd C O M. apply (checked_inv D _ K) in C; [|reflexivity].
      destruct C as (-> & -> & g' & -> & T). apply t_tag_delivered in T. subst g'.
      split.
      - split; [|split]; cbn [ps_top ps_stack].
        + unfold at_opener. rewrite O. eauto.
        + intros f ? ? ->. discriminate O.
        + constructor; assumption.
      - exists ps. split; [exact Hps|]. destruct M as [->| ->]; constructor; exact Hw. }
    assert (SC : forall t v, y = mkEntry t (e_read y) ->
                 checked E s0 (e_read y) (mkNode a g k) true (fun n => EvScalar n v) (mk s st) l1
                   = (p', l', Ok (Some e)) ->
                 (forall g', g' = delivered_tag true g ->
                    node_tokens (ps ++ [t]) (EvScalar (mkNode a g' k) v)) ->
                 inv p' l' /\ exists c, consumed_by (x :: l) l' c /\ node_tokens c (ev_data e)).
    { clear C. intros t v Ey C N. apply (checked_inv D _ K) in C; [|reflexivity].
      destruct C as (-> & -> & g' & -> & T). apply t_tag_delivered in T.
      split; [apply inv_quiet; assumption|]. exists (ps ++ [t]).
      split; [|apply N; exact T]. red. rewrite <- app_assoc, Hps, Ey. reflexivity. }
    destruct y as [[[]|d] m]; cbn [e_marker e_wrap maybe_marker token_marker node_variant e_read] in *;
      try (apply NE; exact C);
      try (destruct b; [|apply NE; exact C]);
      try (eapply OP; [exact C|reflexivity|auto]; fail).
    - eapply SC; [reflexivity|exact C|]. intros g' ->. constructor; exact Hw.
    - eapply SC; [reflexivity|exact C|]. intros g' ->. constructor; exact Hw.
  Qed.

  (** A handler's outcome. *)
  Definition call_ok (l : E) (p' : parser) (l' : E) (e : event) : Prop :=
    inv p' l' /\ exists c, consumed_by l l' c /\ stands_for c (ev_data e).

  Ltac red_in H :=
    unfold block_sequence_entry, block_mapping_key, block_mapping_value,
      flow_sequence_entry, flow_sequence_entry_mapping_key, flow_sequence_entry_mapping_value,
      flow_sequence_entry_mapping_end, flow_mapping_key, flow_mapping_value, fetch_end,
      debug_assert, pbind, pret, pupd, pop, peek, peek_opt, empty_scalar, deliver in H;
    cbn -[parse_node] in H.

  (** [pre] are the structural tokens already read. *)
  Lemma done_node pre b k top s st l l1 p' l' e :
    forallb structural pre = true -> consumed_by l l1 pre ->
    quiet s -> Forall quiet st ->
    parse_node E L b k (mk top (s :: st)) l1 = (p', l', Ok (Some e)) ->
    call_ok l p' l' e.
  Proof.
    intros Hs Hc Q F H. destruct (node_call _ _ _ _ _ _ _ _ _ Q F H) as [I (c & C & N)].
    split; [exact I|]. exists (pre ++ c). split; [|constructor; assumption].
    unfold consumed_by in *. rewrite Hc, C, app_assoc. reflexivity.
  Qed.

  Lemma done_absent pre k s st l l' m n :
    forallb structural pre = true -> consumed_by l l' pre ->
    quiet s -> Forall quiet st ->
    call_ok l (mk s st) l' (mkEvent m n (absent k)).
  Proof.
    intros Hs Hc Q F. split; [apply inv_quiet; assumption|].
    exists (pre ++ []). split; [rewrite app_nil_r; exact Hc|].
    apply sf_node; [exact Hs|]. apply (nt_empty [] None None). constructor.
  Qed.

  Lemma done_mapping pre k s st l l' m n :
    forallb structural pre = true -> consumed_by l l' pre ->
    quiet s -> Forall quiet st ->
    call_ok l (mk s st) l' (mkEvent m n (EvMappingStart (mkNode None None k))).
  Proof.
    intros Hs Hc Q F. split; [apply inv_quiet; assumption|].
    exists (pre ++ []). split; [rewrite app_nil_r; exact Hc|].
    apply sf_node; [exact Hs|]. apply (nt_mapping [] None None). constructor.
  Qed.

  Lemma done_end pre d s st l l' m n :
    forallb structural pre = true -> consumed_by l l' pre ->
    quiet s -> Forall quiet st -> (d = EvSequenceEnd \/ d = EvMappingEnd) ->
    call_ok l (mk s st) l' (mkEvent m n d).
  Proof.
    intros Hs Hc Q F M. split; [apply inv_quiet; assumption|].
    exists pre. split; [exact Hc|]. destruct M as [->| ->]; constructor; assumption.
  Qed.

  Lemma quiet_states :
    quiet (StBlockSequenceEntry false) /\ quiet (StBlockMappingKey false) /\
    quiet StBlockMappingValue /\ quiet (StFlowSequenceEntry false) /\
    quiet StFlowSequenceMappingKey /\ quiet StFlowSequenceMappingValue /\
    quiet StFlowSequenceMappingEnd /\ quiet (StFlowMappingKey false) /\
    (forall b, quiet (StFlowMappingValue b)) /\ quiet StDocumentEnd /\
    quiet StDocumentContent /\ quiet StBlockNode.
  Proof. repeat split; try reflexivity; discriminate. Qed.

  (** The handler has decided: the outcome is one of the forms above. *)
  Ltac with_prefix pre H Q F :=
    first
      [ simple refine (done_node pre _ _ _ _ _ _ _ _ _ _ _ _ _ _ H);
        [reflexivity|reflexivity|split;[reflexivity|discriminate]|exact F]
      | injection H as <- <- <-;
        first [ simple refine (done_absent pre _ _ _ _ _ _ _ _ _ _ _)
              | simple refine (done_mapping pre _ _ _ _ _ _ _ _ _ _ _)
              | simple refine (done_end pre _ _ _ _ _ _ _ _ _ _ _ _) ];
        [reflexivity|reflexivity
        |first [exact Q|split;[reflexivity|discriminate]]
        |first [exact F|inversion F; assumption]|..]; auto ].
  Ltac heads H :=
    repeat (first
      [ discriminate H
      | match type of H with
        | context [match hd_error ?l with _ => _ end] =>
            destruct l as [|[[[]|?d] ?m] ?l]; cbn -[parse_node] in H
        | context [debug && ?b] => destruct (debug && b); cbn -[parse_node] in H
        end ]).

  Lemma handlers s s' r l p' l' e :
    poppable s = true -> s <> StDocumentContent -> s <> StBlockNode -> s <> StFlowNode ->
    at_opener s l -> Forall quiet (s' :: r) ->
    state_transition E L debug (mk s (s' :: r)) l = (p', l', Ok (Some e)) ->
    call_ok l p' l' e.
  Proof.
    intros P N1 N2 N3 O F H. assert (F0 := F). inversion F as [|? ? Q F']; subst.
    unfold state_transition, pbind at 1 in H. cbn [ps_top] in H.
    destruct s as [| | | | | | |f|f| |f| | | |f|f]; try discriminate P; try congruence; clear P N1 N2 N3;
      try destruct f; unfold at_opener in O; cbn [opener] in O;
      try (destruct O as (x0 & l0 & -> & O)); red_in H;
      try (destruct x0 as [[[]|?d] ?m]; try discriminate O; clear O);
      cbn -[parse_node] in H.
    all: heads H.
    all: match type of F with Forall _ ?st =>
      match goal with
      | |- call_ok ?l _ _ _ =>
          first
            [ with_prefix (@nil maybe_token) H Q F
            | match l with ?a :: _ => with_prefix [e_wrap a] H Q F end
            | match l with ?a :: ?b :: _ => with_prefix [e_wrap a; e_wrap b] H Q F end
            | match l with ?a :: ?b :: ?c :: _ =>
                with_prefix [e_wrap a; e_wrap b; e_wrap c] H Q F end ]
      end end.
  Qed.
End Calls.

Section CallRuns.
  Variable debug : bool.
  Notation L := list_source.
  Notation E := (list entry).

  Definition outcome (p : parser) (l : E) (o : option event) (p' : parser) (l' : E) : Prop :=
    inv p' l' /\ exists c, consumed_by l l' c /\
      match o with Some e => stands_for c (ev_data e) | None => c = [] end.

  Lemma inv_done s st D d l : quiet s -> Forall quiet st -> inv (mkParser s st D d) l.
  Proof. intros Q F. exact (inv_quiet D s st l Q F). Qed.

  Lemma document_start_call i f D l p' l' o :
    (forall x r, l = x :: r -> i = false -> e_marker x <> MDocumentEnd) ->
    document_start E L i f (mkParser (StDocumentStart i f) [] D false) l = (p', l', Ok o) ->
    outcome (mkParser (StDocumentStart i f) [] D false) l o p' l'.
  Proof.
    intros A H. destruct l as [|x l].
    { destruct i; discriminate H. }
    rewrite document_start_rest in H.
    2:{ destruct i; [auto|]. right. exact (A x l eq_refl eq_refl). }
    unfold document_rest, pbind at 1, peek at 1, peek_opt, pbind at 1 in H.
    cbn [L ts_look map_err hd_error] in H. unfold pret at 1 in H. cbv zeta in H.
    assert (QE : Forall quiet [StDocumentEnd]) by (repeat constructor; discriminate).
    set (mk := match e_marker x with
      | MTagDirective | MVersionDirective | MDocumentStart | MStreamEnd => true
      | _ => false end) in *.
    destruct (i && negb mk) eqn:B.
    - apply andb_prop in B. destruct B as [-> B].
      assert (I : ~ In (e_marker x) [MVersionDirective; MTagDirective; MDocumentStart; MStreamEnd]).
      { subst mk. destruct (e_marker x); try discriminate B; cbn; intuition discriminate. }
      unfold pbind at 1 in H.
      destruct (scan_document_directives E L _ (x :: l)) as [[p1 l1] [[[s e] d]| | |]] eqn:H1; try discriminate H.
      apply (document_directives_inv debug) in H1. destruct H1 as (ds & W & -> & -> & Hd & A').
      assert (ds = []) as ->.
      { eapply ds_nil; [symmetry; exact W|]. intros C; apply I. unfold e_marker in *. cbn in *; tauto. }
      cbn [map app] in W. injection H as <- <- <-.
      split; [apply inv_done; [split; [reflexivity|discriminate]|exact QE]|].
      exists []. split; [exact W|]. apply sf_bare_document.
    - destruct (marker_eqb (e_marker x) MStreamEnd) eqn:SE.
      + destruct x as [[[]|] m]; try discriminate SE. cbn [e_marker e_wrap maybe_marker token_marker] in H.
        destruct f.
        * unfold pbind at 1 in H.
          destruct (scan_document_directives E L _ _) as [[p1 l1] [[[s e] d]| | |]] eqn:H1; try discriminate H.
          apply (document_directives_inv debug) in H1. destruct H1 as (ds & W & -> & -> & Hd & A').
          assert (ds = []) as ->.
          { eapply ds_nil; [symmetry; exact W|]. cbn; intuition discriminate. }
          cbn [map app] in W. injection H as <- <- <-.
          split; [apply inv_done; [split; [reflexivity|discriminate]|constructor]|].
          exists []. split; [exact W|]. apply sf_bare_document.
        * injection H as <- <- <-.
          split; [apply inv_done; [split; [reflexivity|discriminate]|constructor]|].
          exists []. split; reflexivity.
      + assert (H' : pbind E (scan_document_directives E L) (fun '(s, _, d) =>
          pbind E (peek E L) (fun '(_, t) =>
          pbind E (match t with
                   | MDocumentStart => pbind E (pop E L) (fun e => pret E (e_read e))
                   | _ => pfail E (Err MissingDocumentStart)
                   end) (fun e =>
          pbind E (pupd E (st_push StDocumentEnd)) (fun _ =>
          pbind E (pupd E (st_top StDocumentContent)) (fun _ =>
          pbind E (activate E d) (fun _ => deliver E s e (EvDocumentStart d false)))))))
          (mkParser (StDocumentStart i f) [] D false) (x :: l) = (p', l', Ok o)).
        { rewrite <- H. destruct (e_marker x); try discriminate SE; reflexivity. }
        clear H. unfold pbind at 1 in H'.
        destruct (scan_document_directives E L _ _) as [[p1 l1] [[[s e] d]| | |]] eqn:H1; try discriminate H'.
        apply (document_directives_inv debug) in H1. destruct H1 as (ds & W & -> & -> & Hd & A').
        destruct l1 as [|y l1]; [discriminate H'|].
        unfold pbind at 1, peek at 1, peek_opt, pbind at 1 in H'.
        cbn [L ts_look map_err hd_error] in H'. unfold pret at 1 in H'.
        destruct y as [[[]|] m]; cbn [e_marker e_wrap maybe_marker token_marker] in H'; try discriminate H'.
        injection H' as <- <- <-.
        split; [apply inv_done; [split; [reflexivity|discriminate]|exact QE]|].
        exists (map directive_token ds ++ [Tok TDocumentStart]).
        split; [|apply sf_document_start; exact Hd].
        red. rewrite W, <- app_assoc. reflexivity.
  Qed.

  Lemma transition_call p l p' l' o :
    shape p -> ps_done p = false -> inv p l ->
    state_transition E L debug p l = (p', l', Ok o) -> outcome p l o p' l'.
  Proof.
    destruct p as [s st D dn]. intros [Hs _] Hd (I1 & I2 & I3) H. cbn [ps_done] in Hd. subst dn.
    cbn [ps_top ps_stack] in *.
    assert (Node : forall b k s' r, st = s' :: r ->
      parse_node E L b k (mkParser s (s' :: r) D false) l = (p', l', Ok o) ->
      outcome (mkParser s (s' :: r) D false) l o p' l').
    { intros b k s' r -> N. inversion I3 as [|? ? Q F]; subst.
      destruct o as [e|].
      - destruct (node_call D b k s s' r l p' l' e Q F N) as [J (c & C & T)].
        split; [exact J|]. exists c. split; [exact C|]. exact (sf_node [] c _ eq_refl T).
      - exfalso. unfold shape_of in Hs. destruct (poppable s) eqn:Ps; [|discriminate Hs].
        apply (node_spec E L b k s (s' :: r) D Ps Hs _ _ _ _ N). }
    destruct (poppable s) eqn:Ps.
    - unfold shape_of in Hs. rewrite Ps in Hs. destruct st as [|s' r]; [destruct Hs|].
      destruct s; try discriminate Ps;
      try (destruct o as [e|];
        [ eapply handlers; [exact Ps|discriminate|discriminate|discriminate|exact I1|exact I3|exact H]
        | exfalso; destruct (silent_states E L debug _ _ D ltac:(unfold shape_of; rewrite Ps; exact Hs)
             _ _ _ _ H eq_refl) as [C|(i & f & C)]; discriminate C ]).
      + (* content *)
        assert (H0 := H). unfold state_transition, pbind at 1 in H. cbn [ps_top] in H.
        destruct l as [|x l]; [discriminate H|].
        destruct o as [e|].
        * eapply (Node true Root); [reflexivity|].
          unfold explicit_document_content, pbind, peek, peek_opt in H; cbn -[parse_node] in H.
          destruct (e_marker x); first [exact H|discriminate H].
        * assert (C : p' = mkParser s' r D false /\ l' = x :: l).
          { unfold explicit_document_content, pbind, peek, peek_opt in H; cbn -[parse_node] in H.
            destruct (e_marker x); try (injection H as <- <-; auto; fail);
              destruct (node_spec E L true Root StDocumentContent _ D eq_refl Hs _ _ _ _ H) as [_ []]. }
          destruct C as [-> ->]. inversion I3 as [|? ? Q F]; subst.
          split; [apply inv_done; assumption|]. exists []. split; reflexivity.
      + eapply (Node true Root); [reflexivity|]. exact H.
      + eapply (Node false Root); [reflexivity|]. exact H.
    - unfold shape_of in Hs. rewrite Ps in Hs. subst st.
      unfold state_transition, pbind at 1 in H. cbn [ps_top] in H.
      destruct s; try discriminate Ps.
      + destruct l as [|x l]; [discriminate H|].
        destruct x as [[[]|] m]; try discriminate H. cbn in H. injection H as <- <- <-.
        split; [apply inv_done; [split; [reflexivity|discriminate]|constructor]|].
        exists [Tok TStreamStart]. split; [reflexivity|constructor].
      + destruct l as [|x l]; [discriminate H|].
        destruct x as [[[]|] m]; try discriminate H. cbn in H. injection H as <- <- <-.
        split; [apply inv_done; [split; [reflexivity|discriminate]|constructor]|].
        exists [Tok TStreamEnd]. split; [reflexivity|constructor].
      + eapply document_start_call; [|exact H].
        intros x r -> ->. exact (I2 _ x r eq_refl eq_refl).
      + destruct l as [|x l]; [discriminate H|].
        unfold document_end, pbind, peek, peek_opt in H; cbn in H.
        destruct (marker_eqb (e_marker x) MDocumentEnd) eqn:M.
        * destruct x as [[[]|] m]; try discriminate M. cbn in H. injection H as <- <- <-.
          split; [apply inv_done; [split; [reflexivity|discriminate]|constructor]|].
          exists [Tok TDocumentEnd]. split; [reflexivity|constructor].
        * assert (N : e_marker x <> MDocumentEnd).
          { intros N. rewrite N in M. discriminate M. }
          assert (H' : (mkParser (StDocumentStart false false) [] D false, x :: l,
                        Ok (Some (mkEvent (e_read x) (e_read x) (EvDocumentEnd true))))
                       = (p', l', @Ok parse_error _ o)).
          { rewrite <- H. destruct (e_marker x); try reflexivity. congruence. }
          injection H' as <- <- <-.
          split; [split; [exact Logic.I|split; [|constructor]]|].
          -- cbn [ps_top]. intros f y l2 _ [= <- <-]. exact N.
          -- exists []. split; [reflexivity|constructor].
  Qed.

  Lemma loop_call n : forall p l p' l' o,
    shape p -> inv p l -> event_loop E L debug n p l = (p', l', Ok o) -> outcome p l o p' l'.
  Proof.
    induction n as [|n IH]; intros p l p' l' o Hp Hi H; cbn [event_loop] in H;
      destruct (ps_done p) eqn:Dn; try discriminate H;
      try (injection H as <- <- <-; split; [exact Hi|]; exists []; split; reflexivity).
    destruct (state_transition E L debug p l) as [[p1 l1] [[e|]| | |]] eqn:S; try discriminate H.
    - injection H as <- <- <-. eapply transition_call; eassumption.
    - destruct (transition_call _ _ _ _ _ Hp Dn Hi S) as [I1 (c1 & C1 & ->)].
      pose proof (transition_ok E L debug p Hp Dn _ _ _ _ S) as [Hp1 _].
      destruct (IH _ _ _ _ _ Hp1 I1 H) as [I2 (c2 & C2 & S2)].
      split; [exact I2|]. exists c2. split; [|exact S2].
      unfold consumed_by in *. rewrite C1, C2. reflexivity.
  Qed.

  (** Up to the first error, the events delivered stand for the tokens read, in
      order and without gaps. *)
  Lemma run_calls n : forall p l, shape p -> inv p l ->
    exists cs rest, wraps l = List.concat cs ++ rest /\
      Forall2 stands_for cs (map ev_data (delivered (run_events L debug n p l))).
  Proof.
    induction n as [|n IH]; intros p l Hp Hi.
    - exists [], (wraps l). split; [reflexivity|constructor].
    - cbn [run_events]. destruct (next_event L debug p l) as [[p1 l1] x] eqn:Nx.
      destruct x as [[e|]| | |]; cbn [delivered map];
        try (exists [], (wraps l); split; [reflexivity|constructor]).
      destruct (loop_call _ _ _ _ _ _ Hp Hi Nx) as [I1 (c & C & S)].
      destruct (next_event_ok E L debug p Hp _ _ _ _ Nx) as [[Hp1 _] _].
      destruct (IH p1 l1 Hp1 I1) as (cs & rest & W & F).
      exists (c :: cs), rest. split; [|constructor; assumption].
      rewrite C, W. cbn [List.concat]. apply app_assoc.
  Qed.
  Lemma inv0 l : inv parser0 l.
  Proof. split; [exact I|]. split; [discriminate|constructor]. Qed.
End CallRuns.
