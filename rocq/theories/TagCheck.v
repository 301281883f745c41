(** How the outcome of one call depends on the directives in force. *)
From Verif Require Export ParserFacts.

Section Uniform.
  Variable R : Type.
  Variable T : token_source R.
  Variable debug : bool.

  (** The call does not look at the directives. *)
  Definition plain {A} (m : P R A) : Prop :=
    forall p r, exists p' r' x, x <> Err UndefinedTag /\
      forall D, m (set_dirs D p) r = (set_dirs D p', r', x).

  Definition untagged (x : pres (option event)) : Prop :=
    x <> Err UndefinedTag /\ forall e, x = Ok (Some e) -> event_tag (ev_data e) = None.
  Definition uniform (m : P R (option event)) : Prop :=
    forall p r,
      (exists p' r' x, untagged x /\
         forall D, m (set_dirs D p) r = (set_dirs D p', r', x)) \/
      (exists p' r' e, event_tag (ev_data e) = None /\
         forall D, m (set_dirs D p) r = (p', r', Ok (Some e))) \/
      (exists p' r' e h s, event_tag (ev_data e) = Some (h, s) /\
         forall D, m (set_dirs D p) r =
           (set_dirs D p', r', match tag_get (d_tags D) (cow_str h) with
                               | Some _ => Ok (Some e)
                               | None => Err UndefinedTag
                               end)).

  Lemma plain_ret A (a : A) : plain (pret R a).
  Proof. intros p r; exists p, r, (Ok a); split; [discriminate|reflexivity]. Qed.
  Lemma plain_fail A (x : pres A) : x <> Err UndefinedTag -> plain (pfail R x).
  Proof. intros H p r; exists p, r, x; split; [exact H|reflexivity]. Qed.
  Lemma plain_upd f : (forall D p, f (set_dirs D p) = set_dirs D (f p)) -> plain (pupd R f).
  Proof.
    intros H p r; exists (f p), r, (Ok tt); split; [discriminate|].
    intros D; unfold pupd; rewrite H; reflexivity.
  Qed.
  Lemma plain_bind A B (m : P R A) (k : A -> P R B) :
    plain m -> (forall a, plain (k a)) -> plain (pbind R m k).
  Proof.
    intros Hm Hk p r. destruct (Hm p r) as (p1 & r1 & x & U & E).
    destruct x as [a|e| |].
    - destruct (Hk a p1 r1) as (p2 & r2 & y & V & F). exists p2, r2, y. split; [exact V|].
      intros D. unfold pbind. rewrite E. apply F.
    - exists p1, r1, (Err e). split; [congruence|]. intros D; unfold pbind; rewrite E; reflexivity.
    - exists p1, r1, Panic. split; [congruence|]. intros D; unfold pbind; rewrite E; reflexivity.
    - exists p1, r1, Fuel. split; [congruence|]. intros D; unfold pbind; rewrite E; reflexivity.
  Qed.
  Lemma uniform_bind A (m : P R A) k :
    plain m -> (forall a, uniform (k a)) -> uniform (pbind R m k).
  Proof.
    intros Hm Hk p r. destruct (Hm p r) as (p1 & r1 & x & U & E).
    destruct x as [a|e| |].
    - destruct (Hk a p1 r1) as [(p2 & r2 & y & V & F)|[(p2 & r2 & e & V & F)|(p2 & r2 & e & h & s & V & F)]].
      + left. exists p2, r2, y. split; [exact V|]. intros D. unfold pbind. rewrite E. apply F.
      + right; left. exists p2, r2, e. split; [exact V|]. intros D. unfold pbind. rewrite E. apply F.
      + right; right. exists p2, r2, e, h, s. split; [exact V|]. intros D. unfold pbind. rewrite E. apply F.
    - left. exists p1, r1, (Err e). split; [split; [congruence|discriminate]|]. intros D; unfold pbind; rewrite E; reflexivity.
    - left. exists p1, r1, Panic. split; [split; [congruence|discriminate]|]. intros D; unfold pbind; rewrite E; reflexivity.
    - left. exists p1, r1, Fuel. split; [split; [congruence|discriminate]|]. intros D; unfold pbind; rewrite E; reflexivity.
  Qed.
  Lemma uniform_ret o : (forall e, o = Some e -> event_tag (ev_data e) = None) -> uniform (pret R o).
  Proof.
    intros H p r; left; exists p, r, (Ok o). split; [|reflexivity].
    split; [discriminate|]. intros e [= ->]; auto.
  Qed.
  Lemma uniform_fail x : untagged x -> uniform (pfail R x).
  Proof. intros H p r; left; exists p, r, x. split; [exact H|reflexivity]. Qed.

  Lemma reader_error A (x : rres A) : map_err parse_error_of_reader x <> Err UndefinedTag.
  Proof. destruct x as [a|e| |]; try discriminate. destruct e; discriminate. Qed.
  Lemma plain_peek_opt : plain (peek_opt R T).
  Proof.
    intros p r. unfold peek_opt. destruct (ts_look T r) as [r' x].
    exists p, r', (map_err parse_error_of_reader x). split; [apply reader_error|reflexivity].
  Qed.
  Lemma plain_raw_pop :
    plain (fun p r => let (r', x) := ts_pop T r in (p, r', map_err parse_error_of_reader x)).
  Proof.
    intros p r. destruct (ts_pop T r) as [r' x].
    exists p, r', (map_err parse_error_of_reader x). split; [apply reader_error|reflexivity].
  Qed.
  Lemma plain_budget : plain (budget R T).
  Proof. intros p r; exists p, r, (Ok (S (ts_budget T r))); split; [discriminate|reflexivity]. Qed.

  Ltac pl :=
    repeat first
      [ apply plain_ret | apply plain_peek_opt | apply plain_raw_pop | apply plain_budget
      | apply plain_fail; discriminate
      | apply plain_bind; [|intros ?]
      | match goal with
        | |- plain (deliver _ _ _ _) => apply plain_ret
        | |- plain (empty_scalar _ _ _) => apply plain_ret
        | |- plain (pupd _ (st_top _)) => apply plain_upd; reflexivity
        | |- plain (pupd _ (st_push _)) => apply plain_upd; reflexivity
        | |- plain (match ?x with _ => _ end) => destruct x
        | |- plain (if ?x then _ else _) => destruct x
        | |- plain (peek _ _) => unfold peek
        | |- plain (pop _ _) => unfold pop
        | |- plain (consume _ _) => unfold consume
        | |- plain (consume_scalar _ _) => unfold consume_scalar
        | |- plain (debug_assert _ _ _) => unfold debug_assert
        end ].

  Lemma plain_pop : plain (pupd R st_pop).
  Proof.
    apply plain_upd. intros D [t [|a st] d b]; reflexivity.
  Qed.
  Lemma plain_done : plain (pupd R set_done).
  Proof. apply plain_upd. reflexivity. Qed.
  Lemma plain_directives n : forall e b d, plain (scan_directives R T n e b d).
  Proof. induction n as [|n IH]; intros e b d; cbn [scan_directives]; pl; apply IH. Qed.
  Lemma plain_document_directives : plain (scan_document_directives R T).
  Proof.
    unfold scan_document_directives. pl. apply plain_directives.
  Qed.
  Lemma plain_skip n : plain (skip_document_ends R T n).
  Proof. induction n as [|n IH]; cbn [skip_document_ends]; pl; apply IH. Qed.
  Lemma plain_properties s t : plain (properties R T s t).
  Proof. unfold properties, fetch_anchor, fetch_tag. pl. Qed.

  Lemma uniform_checked s e n b mk :
    (forall n', event_tag (mk n') = n_tag n') -> uniform (checked R s e n b mk).
  Proof.
    intros Hm p r. unfold checked, validate_tag. destruct (n_tag n) as [[h u]|] eqn:G.
    - destruct (b && _).
      + left. eexists p, r, _. split; [|intros D; reflexivity].
        split; [discriminate|]. intros ? [= <-]. cbn [ev_data]. rewrite Hm. reflexivity.
      + right; right. exists p, r, (mkEvent s e (mk n)), h, u. cbn [ev_data].
        split; [rewrite Hm; exact G|]. intros D. cbn [ps_dirs set_dirs].
        destruct (tag_get (d_tags D) (cow_str h)); reflexivity.
    - left. eexists p, r, _. split; [|intros D; reflexivity].
      split; [discriminate|]. intros ? [= <-]. cbn [ev_data]. rewrite Hm. exact G.
  Qed.

  Lemma uniform_activated d s e i : uniform (pbind R (activate R d) (fun _ => deliver R s e (EvDocumentStart d i))).
  Proof.
    intros p r. right; left.
    exists (set_dirs (mkDirs (d_version d) (tags_to_owned (d_tags d))) p), r,
      (mkEvent s e (EvDocumentStart d i)).
    split; [reflexivity|]. intros D. reflexivity.
  Qed.

  Ltac un :=
    repeat first
      [ apply uniform_activated
      | match goal with
        | |- uniform (checked _ _ _ _ _ _) => apply uniform_checked; reflexivity
        | |- uniform (pbind _ _ _) => apply uniform_bind; [|intros ?]
        | |- uniform (match ?x with _ => _ end) => destruct x
        | |- uniform (if ?x then _ else _) => destruct x
        | |- uniform (pret _ _) => apply uniform_ret; [intros ? [= <-]; reflexivity]
        | |- uniform (pret _ None) => apply uniform_ret; discriminate
        | |- uniform (pfail _ _) => apply uniform_fail; split; discriminate
        | |- uniform (deliver _ _ _ _) => apply uniform_ret; intros ? [= <-]; reflexivity
        | |- uniform (empty_scalar _ _ _) => apply uniform_ret; intros ? [= <-]; reflexivity
        | |- uniform (fetch_end _ _ _ _) => unfold fetch_end
        | |- uniform (node_empty _ _ _ _) => unfold node_empty
        | |- plain _ => first [ apply plain_pop | apply plain_done | apply plain_document_directives
                              | apply plain_skip | apply plain_properties | progress pl ]
        end ].

  Lemma uniform_node b k : uniform (parse_node R T b k).
  Proof.
    unfold parse_node, node_content, node_variant. un.
  Qed.

  (** The handlers, given the state they are called in. *)
  Definition handler (s : state) : P R (option event) :=
    match s with
    | StStreamStart => stream_start R T
    | StDocumentStart i f => document_start R T i f
    | StDocumentContent => explicit_document_content R T
    | StDocumentEnd => document_end R T
    | StBlockNode => parse_node R T true Root
    | StFlowNode => parse_node R T false Root
    | StBlockSequenceEntry f => block_sequence_entry R T debug f
    | StBlockMappingKey f => block_mapping_key R T debug f
    | StBlockMappingValue => block_mapping_value R T
    | StFlowSequenceEntry f => flow_sequence_entry R T debug f
    | StFlowSequenceMappingKey => flow_sequence_entry_mapping_key R T
    | StFlowSequenceMappingValue => flow_sequence_entry_mapping_value R T
    | StFlowSequenceMappingEnd => flow_sequence_entry_mapping_end R T debug
    | StFlowMappingKey f => flow_mapping_key R T debug f
    | StFlowMappingValue e => flow_mapping_value R T e
    | StStreamEnd => stream_end R T
    end.

  Lemma uniform_stream_start : uniform (stream_start R T).
  Proof.
    intros p r. left.
    assert (H : exists p' r' x, untagged x /\
      forall D, stream_start R T (set_dirs D p) r = (set_dirs D p', r', x)); [|exact H].
    unfold stream_start, pbind, peek, peek_opt, consume, pop, pbind.
    destruct (ts_look T r) as [r1 x]. pose proof (reader_error _ x) as X.
    destruct (map_err parse_error_of_reader x) as [[e|]|e| |];
      try (eexists p, r1, _; split; [|intros D; reflexivity]; split; congruence).
    cbn. destruct (e_marker e);
      try (eexists p, r1, _; split; [|intros D; reflexivity]; split; congruence).
    destruct (ts_pop T r1) as [r2 y]. pose proof (reader_error _ y) as Y.
    destruct (map_err parse_error_of_reader y) as [[e'|]|e'| |]; cbn;
      try (eexists p, r2, _; split; [|intros D; reflexivity]; split; congruence).
    destruct (e_wrap e') as [[]|];
      try (eexists p, r2, _; split; [|intros D; reflexivity]; split; congruence).
    eexists (st_top (StDocumentStart true true) p), r2, _.
    split; [|intros D; reflexivity]. split; [discriminate|]. intros ? [= <-]. reflexivity.
  Qed.

  Lemma uniform_handler s : uniform (handler s).
  Proof.
    destruct s; cbn [handler]; [apply uniform_stream_start|..];
      unfold document_start, explicit_document_content, document_end,
        block_sequence_entry, block_mapping_key, block_mapping_value,
        flow_sequence_entry, flow_sequence_entry_mapping_key, flow_sequence_entry_mapping_value,
        flow_sequence_entry_mapping_end, flow_mapping_key, flow_mapping_value, stream_end;
      repeat first [progress un | apply uniform_node].
    intros p r. exists p, r, (Ok (ps_done p)). split; [discriminate|reflexivity].
  Qed.

  Lemma uniform_transition : uniform (state_transition R T debug).
  Proof.
    intros p r. pose proof (uniform_handler (ps_top p) p r) as H.
    destruct H as [(p' & r' & x & V & F)|[(p' & r' & e & V & F)|(p' & r' & e & h & s & V & F)]].
    - left; exists p', r', x; split; [exact V|]. intros D. rewrite <- F.
      unfold state_transition, pbind at 1. cbn [ps_top set_dirs]. destruct (ps_top p); reflexivity.
    - right; left; exists p', r', e; split; [exact V|]. intros D. rewrite <- (F D).
      unfold state_transition, pbind at 1. cbn [ps_top set_dirs]. destruct (ps_top p); reflexivity.
    - right; right; exists p', r', e, h, s; split; [exact V|]. intros D. rewrite <- (F D).
      unfold state_transition, pbind at 1. cbn [ps_top set_dirs]. destruct (ps_top p); reflexivity.
  Qed.

  Lemma uniform_loop n : uniform (event_loop R T debug n).
  Proof.
    induction n as [|n IH]; intros p r; cbn [event_loop].
    - left. cbn [ps_done set_dirs].
      destruct (ps_done p); eexists p, r, _; (split; [|intros D; reflexivity]); split; discriminate.
    - destruct (ps_done p) eqn:Dn.
      + left. exists p, r, (Ok None). split; [split; discriminate|]. intros D. cbn [ps_done set_dirs].
        rewrite Dn. reflexivity.
      + destruct (uniform_transition p r) as [(p' & r' & x & V & F)|[(p' & r' & e & V & F)|(p' & r' & e & h & s & V & F)]].
        * destruct x as [[e|]|e| |].
          -- left. exists p', r', (Ok (Some e)). split; [exact V|]. intros D. cbn [ps_done set_dirs].
             rewrite Dn, F. reflexivity.
          -- destruct (IH p' r') as [(p2 & r2 & y & V2 & F2)|[(p2 & r2 & e & V2 & F2)|(p2 & r2 & e & h & s & V2 & F2)]].
             ++ left. exists p2, r2, y. split; [exact V2|]. intros D. cbn [ps_done set_dirs].
                rewrite Dn, F. apply F2.
             ++ right; left. exists p2, r2, e. split; [exact V2|]. intros D. cbn [ps_done set_dirs].
                rewrite Dn, F. apply F2.
             ++ right; right. exists p2, r2, e, h, s. split; [exact V2|]. intros D. cbn [ps_done set_dirs].
                rewrite Dn, F. apply F2.
          -- left. exists p', r', (Err e). split; [exact V|]. intros D. cbn [ps_done set_dirs].
             rewrite Dn, F. reflexivity.
          -- left. exists p', r', Panic. split; [exact V|]. intros D. cbn [ps_done set_dirs].
             rewrite Dn, F. reflexivity.
          -- left. exists p', r', Fuel. split; [exact V|]. intros D. cbn [ps_done set_dirs].
             rewrite Dn, F. reflexivity.
        * right; left. exists p', r', e. split; [exact V|]. intros D. cbn [ps_done set_dirs].
          rewrite Dn, F. reflexivity.
        * right; right. exists p', r', e, h, s. split; [exact V|]. intros D. cbn [ps_done set_dirs].
          rewrite Dn, F. destruct (tag_get _ _); reflexivity.
  Qed.

  Definition call (p : parser) (r : R) (D : directives) : pres (option event) :=
    snd (next_event T debug (set_dirs D p) r).

  Lemma undefined_tag p r :
    (forall D e h s, call p r D = Ok (Some e) -> event_tag (ev_data e) = Some (h, s) ->
       forall D', tag_get (d_tags D') (cow_str h) = None -> call p r D' = Err UndefinedTag) /\
    (forall D, call p r D = Err UndefinedTag ->
       exists h s, tag_get (d_tags D) (cow_str h) = None /\
         forall D', tag_get (d_tags D') (cow_str h) <> None ->
           exists e, call p r D' = Ok (Some e) /\ event_tag (ev_data e) = Some (h, s)).
  Proof.
    unfold call, next_event.
    destruct (uniform_loop 3 p r) as [(p' & r' & x & V & F)|[(p' & r' & e & V & F)|(p' & r' & e & h & s & V & F)]].
    - destruct V as [V1 V2]. split.
      + intros D e0 h s H. rewrite F in H. cbn in H. rewrite (V2 _ H). discriminate.
      + intros D H. rewrite F in H. cbn in H. congruence.
    - split.
      + intros D e0 h s H. rewrite F in H. cbn in H. injection H as <-. congruence.
      + intros D H. rewrite F in H. discriminate H.
    - split.
      + intros D e0 h0 s0 H H0 D' N. rewrite F in *. cbn [snd] in *.
        destruct (tag_get (d_tags D) (cow_str h)); [|discriminate H]. injection H as <-.
        rewrite V in H0. injection H0 as -> ->. rewrite N. reflexivity.
      + intros D H. rewrite F in H. cbn [snd] in H.
        destruct (tag_get (d_tags D) (cow_str h)) eqn:G; [discriminate H|].
        exists h, s. split; [exact G|]. intros D' N. rewrite F. cbn [snd].
        destruct (tag_get (d_tags D') (cow_str h)); [|congruence]. eauto.
  Qed.
End Uniform.
