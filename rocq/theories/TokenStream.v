(** Completeness of the parser for whole token streams. *)
From Verif Require Export TokenGrammar.

Section Complete.
  Variable debug : bool.
  Notation L := list_source.
  Notation E := (list entry).

  Lemma NoDup_app_not_in {A} (a : list A) x b : NoDup (a ++ x :: b) -> ~ In x a.
  Proof.
    intros H I. apply NoDup_remove_2 in H. apply H, in_or_app; left; exact I.
  Qed.

  Lemma tag_get_none m h : tag_get m h = None <-> ~ In h (map (fun hp => cow_str (fst hp)) m).
  Proof.
    induction m as [|[k v] m IH]; cbn [tag_get map In fst]; [tauto|].
    destruct (str_eqb (cow_str k) h) eqn:B.
    - apply str_eqb_eq in B. split; [discriminate|tauto].
    - apply str_eqb_neq in B. rewrite IH. tauto.
  Qed.

  (** [scan_directives] reads distinct directives and stops at the next token. *)
  Lemma scan_directives_ok ds : forall fuel end_ seen ver tags p l ts,
    List.length ds < fuel ->
    List.length (versions ds) <= (if seen : bool then 0 else 1) ->
    NoDup (map (fun hp => cow_str (fst hp)) (tags ++ declared ds)) ->
    wraps l = map directive_token ds ++ ts -> ahead_not ts directive_markers ->
    exists e l', wraps l' = ts /\
      scan_directives E L fuel end_ seen (mkDirs ver tags) p l =
      (p, l', Ok (e, mkDirs (hd ver (versions ds)) (tags ++ declared ds))).
  Proof.
    induction ds as [|d ds IH]; intros fuel end_ seen ver tags p l ts Hf Hv Hn W A;
      (destruct fuel as [|fuel]; [inversion Hf|]).
    - destruct A as (m & A & N). cbn in W.
      destruct (ahead_wraps _ _ _ W A) as (x & l' & -> & <-).
      exists end_, (x :: l'). split; [exact W|]. cbn [declared flat_map versions hd].
      rewrite app_nil_r. cbn [scan_directives]. unfold pbind, peek, peek_opt; cbn.
      unfold e_marker in *. destruct (maybe_marker (e_wrap x)) eqn:M; try reflexivity;
        destruct N; in_cases.
    - destruct (wraps_cons _ _ _ W) as (m & l1 & -> & W1).
      destruct d as [a b|h q].
      + change (S (List.length (versions ds)) <= (if seen then 0 else 1)) in Hv.
        destruct seen; [lia|].
        destruct (IH fuel m true (a, b) tags p l1 ts) as (e & l' & W' & E'); try assumption.
        * cbn in Hf; lia.
        * lia.
        * exists e, l'. split; [exact W'|].
          cbn [directive_token]. cbn [scan_directives]. unfold pbind, peek, peek_opt; cbn.
          rewrite E'. cbn [versions declared flat_map app hd]. do 4 f_equal.
          assert (Z : versions ds = []) by (destruct (versions ds); [reflexivity|cbn in Hv; lia]).
          rewrite Z; reflexivity.
      + cbn [declared flat_map app] in Hn.
        assert (T : tag_get tags (cow_str h) = None).
        { apply tag_get_none. rewrite map_app in Hn. cbn in Hn. apply NoDup_app_not_in in Hn. exact Hn. }
        destruct (IH fuel m seen ver (tag_insert tags h q) p l1 ts) as (e & l' & W' & E'); try assumption.
        * cbn in Hf; lia.
        * unfold tag_insert. rewrite <- app_assoc. exact Hn.
        * exists e, l'. split; [exact W'|].
          cbn [directive_token]. cbn [scan_directives]. unfold pbind, peek, peek_opt; cbn -[tag_insert].
          rewrite T, E'. unfold tag_insert. rewrite <- app_assoc. reflexivity.
  Qed.

  Lemma defaults_kept v r :
    fold_left (fun m hp => tag_or_insert m (fst hp) (snd hp)) default_tags (default_tags ++ r)
    = d_tags (mkDirs v (default_tags ++ r)).
  Proof. reflexivity. Qed.

  Lemma document_directives_ok ds p l ts :
    distinct ds -> wraps l = map directive_token ds ++ ts -> ahead_not ts directive_markers ->
    exists s e l', wraps l' = ts /\
      scan_document_directives E L p l = (p, l', Ok (s, e, directives_of ds)).
  Proof.
    intros [H1 H2] W A. destruct l as [|x l].
    { destruct ds; [|discriminate]. cbn in W; subst ts. destruct A as (m & A & _); discriminate. }
    destruct (scan_directives_ok ds (S (List.length (x :: l))) (e_read x) false default_version
                default_tags p (x :: l) ts) as (e & l' & W' & E'); try assumption.
    { apply (f_equal (@List.length _)) in W. unfold wraps in W.
      rewrite map_length, app_length, map_length in W. lia. }
    exists (e_read x), e, l'. split; [exact W'|].
    unfold scan_document_directives. change (mkDirs default_version default_tags) with default_directives in E'.
    set (F := scan_directives E L) in *. clearbody F.
    unfold pbind at 1, peek, peek_opt, pbind at 1. cbn [L ts_look map_err hd_error pret].
    unfold pret at 1. unfold budget, pbind at 1. cbn [L ts_budget]. unfold pbind at 1.
    rewrite E'. reflexivity.
  Qed.

  Definition owned_dirs (d : directives) : directives :=
    mkDirs (d_version d) (tags_to_owned (d_tags d)).

  Lemma knows_owned d : knows (owned_dirs d) (known_in d).
  Proof.
    intros h. unfold known_in, owned_dirs; cbn [d_tags]. rewrite (tag_get_owned (d_tags d) h). tauto.
  Qed.

  Lemma step_silent p l p1 l1 p2 l2 e d :
    ps_done p = false -> state_transition E L debug p l = (p1, l1, Ok None) ->
    ps_done p1 = false -> state_transition E L debug p1 l1 = (p2, l2, Ok (Some e)) ->
    ev_data e = d -> step debug p l d p2 l2.
  Proof.
    intros H1 H2 H3 H4 <-. exists e. split; [|reflexivity].
    unfold next_event; cbn [event_loop]. rewrite H1, H2, H3, H4. reflexivity.
  Qed.

  Definition documents_c (bare first : bool) ts evs rest : Prop :=
    forall D l, wraps l = ts ->
    exists D' l',
      steps debug (mkParser (StDocumentStart bare first) [] D false) l evs
        (mkParser StStreamEnd [] D' true) l' /\ wraps l' = rest.
  Definition document_end_c ts evs rest : Prop :=
    forall D l, wraps l = ts ->
    exists D' l',
      steps debug (mkParser StDocumentEnd [] D false) l evs
        (mkParser StStreamEnd [] D' true) l' /\ wraps l' = rest.

  Lemma skip_ends_none p x l :
    e_marker x <> MDocumentEnd ->
    pbind E (budget E L) (fun n => skip_document_ends E L n) p (x :: l) = (p, x :: l, Ok tt).
  Proof.
    intros H. unfold pbind, budget. cbn [skip_document_ends]. unfold pbind, peek, peek_opt; cbn.
    unfold e_marker in *. destruct (maybe_marker (e_wrap x)); try reflexivity. congruence.
  Qed.

  (** The part of [document_start] after the extra markers were skipped. *)
  Definition document_rest (i first : bool) : P E (option event) :=
    pbind E (peek E L) (fun '(_, t) =>
    let markers :=
      match t with
      | MTagDirective | MVersionDirective | MDocumentStart | MStreamEnd => true
      | _ => false
      end in
    if i && negb markers then
      pbind E (scan_document_directives E L) (fun '(s, e, d) =>
      pbind E (pupd E (st_push StDocumentEnd)) (fun _ =>
      pbind E (pupd E (st_top StBlockNode)) (fun _ =>
      pbind E (activate E d) (fun _ => deliver E s e (EvDocumentStart d true)))))
    else
      match t with
      | MStreamEnd =>
          if first then
            pbind E (scan_document_directives E L) (fun '(s, e, d) =>
            pbind E (pupd E (st_top StDocumentEnd)) (fun _ =>
            pbind E (activate E d) (fun _ => deliver E s e (EvDocumentStart d true))))
          else pbind E (pupd E (st_top StStreamEnd)) (fun _ => pret E None)
      | _ =>
          pbind E (scan_document_directives E L) (fun '(s, _, d) =>
          pbind E (peek E L) (fun '(_, t) =>
          pbind E (match t with
                   | MDocumentStart => pbind E (pop E L) (fun e => pret E (e_read e))
                   | _ => pfail E (Err MissingDocumentStart)
                   end) (fun e =>
          pbind E (pupd E (st_push StDocumentEnd)) (fun _ =>
          pbind E (pupd E (st_top StDocumentContent)) (fun _ =>
          pbind E (activate E d) (fun _ => deliver E s e (EvDocumentStart d false)))))))
      end).

  Lemma document_start_rest i f p x l :
    i = true \/ e_marker x <> MDocumentEnd ->
    document_start E L i f p (x :: l) = document_rest i f p (x :: l).
  Proof.
    intros H. unfold document_start.
    destruct i; [reflexivity|]. destruct H as [H|H]; [discriminate|].
    unfold pbind at 1. rewrite skip_ends_none by exact H. reflexivity.
  Qed.

  Lemma stream_end_c bare ts : documents_c bare false (Tok TStreamEnd :: ts) [EvStreamEnd] ts.
  Proof.
    intros D l W. destruct (wraps_cons _ _ _ W) as (m & l' & -> & W').
    exists D, l'. split; [|exact W']. econstructor; [|constructor].
    eapply (step_silent _ _ (mkParser StStreamEnd [] D false) (mkEntry (Tok TStreamEnd) m :: l')
              _ _ (mkEvent m m EvStreamEnd));
      try reflexivity.
    cbn [state_transition]. unfold state_transition, pbind at 1. cbn [ps_top].
    rewrite document_start_rest by (right; discriminate). destruct bare; reflexivity.
  Qed.

  Lemma empty_stream_c bare ts evs rest :
    documents_c false false (Tok TStreamEnd :: ts) evs rest ->
    documents_c bare true (Tok TStreamEnd :: ts)
      (EvDocumentStart default_directives true :: EvDocumentEnd true :: evs) rest.
  Proof.
    intros IH D l W. destruct (wraps_cons _ _ _ W) as (m & l' & -> & W').
    destruct (IH (owned_dirs default_directives) _ W) as (D' & l2 & S & W2).
    exists D', l2; split; [|exact W2].
    apply (steps_cons debug _ _ _
             (mkParser StDocumentEnd [] (owned_dirs default_directives) false)
             (mkEntry (Tok TStreamEnd) m :: l')).
    { eapply (step_of_transition _ _ _ _ _ (mkEvent m m (EvDocumentStart default_directives true)));
        try reflexivity.
      unfold state_transition, pbind at 1. cbn [ps_top].
      rewrite document_start_rest by (right; discriminate).
      destruct bare; reflexivity. }
    econstructor; [|exact S].
    eapply (step_of_transition _ _ _ _ _ (mkEvent m m (EvDocumentEnd true))); reflexivity.
  Qed.

  Lemma default_directives_of : directives_of [] = default_directives.
  Proof. reflexivity. Qed.

  Lemma distinct_nil : distinct [].
  Proof.
    split; [cbn; lia|]. cbn. repeat constructor; cbn; intuition discriminate.
  Qed.

  Lemma bare_document_c first ts n ts1 evs rest :
    ahead_not ts [MVersionDirective; MTagDirective; MDocumentStart; MStreamEnd] ->
    t_node (known_in default_directives) true Root ts n ts1 ->
    document_end_c ts1 evs rest ->
    documents_c true first ts (EvDocumentStart default_directives true :: n ++ evs) rest.
  Proof.
    intros A N IH D l W.
    assert (A' := A). destruct A' as (m & A' & I).
    destruct (ahead_wraps _ _ _ W A') as (x & l' & -> & <-).
    destruct (document_directives_ok [] (mkParser (StDocumentStart true first) [] D false)
                (x :: l') ts distinct_nil) as (s & e & l2 & W2 & E2).
    { cbn. exact W. }
    { exists (e_marker x); split; [exact A'|]. intros H; apply I; cbn in *; tauto. }
    rewrite default_directives_of in E2.
    destruct (proj1 (nodes_complete debug _ _ (knows_owned default_directives)) _ _ _ _ _ N
                StBlockNode StDocumentEnd [] l2 W2)
      as (e1 & p1 & l3 & ds & l4 & E3 & -> & S3 & W3).
    destruct (IH (owned_dirs default_directives) l4 W3) as (D' & l5 & S5 & W5).
    exists D', l5. split; [|exact W5].
    apply (steps_cons debug _ _ _
             (mkParser StBlockNode [StDocumentEnd] (owned_dirs default_directives) false) l2).
    { eapply (step_of_transition _ _ _ _ _ (mkEvent s e (EvDocumentStart default_directives true)));
        try reflexivity.
      unfold state_transition, pbind at 1. cbn [ps_top].
      rewrite document_start_rest by (left; reflexivity).
      unfold document_rest, pbind at 1, peek, peek_opt, pbind at 1. cbn [L ts_look map_err hd_error].
      unfold pret at 1.
      assert (B : match e_marker x with
                  | MTagDirective | MVersionDirective | MDocumentStart | MStreamEnd => true
                  | _ => false end = false).
      { destruct (e_marker x); try reflexivity; destruct I; in_cases. }
      cbv zeta. rewrite B. cbn [negb andb]. unfold pbind at 1. rewrite E2. reflexivity. }
    cbn [app]. econstructor; [|eapply steps_app; [exact S3|exact S5]].
    eapply step_of_transition; [reflexivity| |reflexivity]. exact E3.
  Qed.

  Lemma document_end_step D x l :
    exists e, state_transition E L debug (mkParser StDocumentEnd [] D false) (x :: l) = e /\
      match e with (p', l', Ok (Some ev)) => ps_done p' = false | _ => False end.
  Proof.
    eexists; split; [reflexivity|]. cbn. destruct (e_marker x); reflexivity.
  Qed.

  Lemma content_c d ts n ts1 evs rest :
    t_content d ts n ts1 -> document_end_c ts1 evs rest -> 
    forall l, wraps l = ts ->
    exists D' l',
      steps debug (mkParser StDocumentContent [StDocumentEnd] (owned_dirs d) false) l (n ++ evs)
        (mkParser StStreamEnd [] D' true) l' /\ wraps l' = rest.
  Proof.
    intros [ts0 (m & A & I)|ts0 n0 ts2 (m & A & I) N] IH l W.
    - destruct (ahead_wraps _ _ _ W A) as (x & l' & -> & <-).
      destruct (IH (owned_dirs d) _ W) as (D' & l2 & S & W2).
      exists D', l2; split; [|exact W2]. cbn [app].
      inversion S as [p0 l0|p0 l0 d0 p1 l1 ds p' l'' (e & E1 & E2) S']; subst.
      econstructor; [|exact S'].
      destruct (document_end_step (owned_dirs d) x l') as (y & Ey & Hy).
      destruct y as [[p2 l3] [[ev|]|z| |]]; try (exfalso; exact Hy); clear Hy.
      pose proof (fun H => next_of_transition debug _ _ _ _ _ H Ey) as E3. specialize (E3 eq_refl).
      rewrite E3 in E1. injection E1 as -> -> ->.
      eapply (step_silent _ _ (mkParser StDocumentEnd [] (owned_dirs d) false) (x :: l'));
        [reflexivity| | |exact Ey|].
      + unfold state_transition, pbind at 1. cbn [ps_top].
        unfold explicit_document_content, pbind, peek, peek_opt; cbn -[parse_node].
        unfold e_marker in *. destruct (maybe_marker (e_wrap x)) eqn:M; try reflexivity;
          exfalso; cbn in I; intuition congruence.
      + reflexivity.
      + reflexivity.
    - destruct (ahead_wraps _ _ _ W A) as (x & l' & -> & <-).
      destruct (proj1 (nodes_complete debug _ _ (knows_owned d)) _ _ _ _ _ N
                StDocumentContent StDocumentEnd [] _ W)
        as (e1 & p1 & l3 & ds & l4 & E3 & -> & S3 & W3).
      destruct (IH (owned_dirs d) l4 W3) as (D' & l5 & S5 & W5).
      exists D', l5; split; [|exact W5].
      cbn [app]. econstructor; [|eapply steps_app; [exact S3|exact S5]].
      eapply step_of_transition; [reflexivity| |reflexivity].
      rewrite <- E3. unfold state_transition, pbind at 1. cbn [ps_top].
      unfold explicit_document_content, pbind, peek, peek_opt; cbn -[parse_node].
      unfold e_marker in *. destruct (maybe_marker (e_wrap x)) eqn:M; try reflexivity;
        exfalso; apply I; cbn; tauto.
  Qed.

  Lemma explicit_document_c bare first ds ts n ts1 evs rest :
    distinct ds -> t_content (directives_of ds) ts n ts1 ->
    document_end_c ts1 evs rest ->
    documents_c bare first (map directive_token ds ++ Tok TDocumentStart :: ts)
      (EvDocumentStart (directives_of ds) false :: n ++ evs) rest.
  Proof.
    intros Hd C IH D l W.
    destruct l as [|x l]; [destruct ds; discriminate|].
    destruct (document_directives_ok ds (mkParser (StDocumentStart bare first) [] D false)
                (x :: l) _ Hd W) as (s & e & l2 & W2 & E2).
    { exists MDocumentStart; split; [reflexivity|]. in_cases. }
    destruct (wraps_cons _ _ _ W2) as (m & l3 & -> & W3).
    destruct (content_c _ _ _ _ _ _ C IH l3 W3) as (D' & l4 & S4 & W4).
    exists D', l4; split; [|exact W4].
    econstructor; [|exact S4].
    eapply (step_of_transition _ _ _ _ _ (mkEvent s m (EvDocumentStart (directives_of ds) false)));
      try reflexivity.
    unfold state_transition, pbind at 1. cbn [ps_top].
    assert (M : In (e_marker x) [MVersionDirective; MTagDirective; MDocumentStart]).
    { destruct ds as [|[a b|h q] ds]; injection W as W _; unfold e_marker; rewrite W; cbn; auto. }
    rewrite document_start_rest by
      (right; intros M'; rewrite M' in M; cbn in M; intuition discriminate).
    unfold document_rest, pbind at 1, peek at 1, peek_opt, pbind at 1. cbn [L ts_look map_err hd_error].
    unfold pret at 1.
    cbn [In] in M. destruct M as [M|[M|[M|[]]]]; rewrite <- M; cbv zeta;
      rewrite andb_false_r; unfold pbind at 1; rewrite E2; reflexivity.
  Qed.

  Lemma documents_complete :
    (forall bare first ts evs rest,
       t_documents bare first ts evs rest -> documents_c bare first ts evs rest) /\
    (forall ts evs rest, t_document_end ts evs rest -> document_end_c ts evs rest).
  Proof.
    apply td_mutind.
    - intros; apply stream_end_c.
    - intros; apply empty_stream_c; assumption.
    - intros; eapply bare_document_c; eassumption.
    - intros; eapply explicit_document_c; eassumption.
    - intros ts evs rest _ IH D l W. destruct (wraps_cons _ _ _ W) as (m & l' & -> & W').
      destruct (IH D l' W') as (D' & l2 & S & W2). exists D', l2; split; [|exact W2].
      econstructor; [|exact S].
      eapply (step_of_transition _ _ _ _ _ (mkEvent m m (EvDocumentEnd false))); reflexivity.
    - intros ts evs rest (m & A & I) _ IH D l W.
      destruct (ahead_wraps _ _ _ W A) as (x & l' & -> & <-).
      destruct (IH D _ W) as (D' & l2 & S & W2). exists D', l2; split; [|exact W2].
      econstructor; [|exact S].
      eapply (step_of_transition _ _ _ _ _ (mkEvent (e_read x) (e_read x) (EvDocumentEnd true)));
        try reflexivity.
      unfold state_transition, document_end, pbind, peek, peek_opt; cbn. unfold e_marker in *.
      destruct (maybe_marker (e_wrap x)) eqn:M; try reflexivity; destruct I; in_cases.
  Qed.

  Lemma steps_run p l evs p' l' : steps debug p l evs p' l' -> ps_done p' = true ->
    forall n, exists es, map ev_data es = evs /\
      run_events L debug (List.length evs + n) p l =
      map (fun e => Ok (Some e)) es ++ repeat (Ok None) n.
  Proof.
    induction 1 as [p l|p l d p1 l1 ds p' l' (e & E1 & E2) S IH]; intros Hd n.
    - exists []. split; [reflexivity|]. apply run_done, Hd.
    - destruct (IH Hd n) as (es & M & R). exists (e :: es). split; [cbn; congruence|].
      cbn [List.length Nat.add run_events]. rewrite E1. cbn [map app]. rewrite <- R. reflexivity.
  Qed.

  (** Every stream of the grammar is read: exactly its events are delivered, then
      the iterator ends. *)
  Lemma stream_complete ts evs rest l n :
    t_stream ts evs rest -> wraps l = ts ->
    exists es, map ev_data es = evs /\
      run_events L debug (List.length evs + n) parser0 l =
      map (fun e => Ok (Some e)) es ++ repeat (Ok None) n.
  Proof.
    intros [ts0 evs0 rest0 H] W. destruct (wraps_cons _ _ _ W) as (m & l' & -> & W').
    destruct (proj1 documents_complete _ _ _ _ _ H default_directives l' W') as (D' & l2 & S & _).
    refine (steps_run _ _ (EvStreamStart :: evs0) _ _ _ _ n);
      [|shelve]. econstructor; [|exact S].
    eapply (step_of_transition _ _ _ _ _ (mkEvent m m EvStreamStart)); reflexivity.
    Unshelve. reflexivity.
  Qed.
End Complete.
