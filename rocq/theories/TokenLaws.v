(** Consequences of the translation grammar and of the per-call accounting. *)
From Verif Require Export TokenCalls TagCheck.

Lemma NoDup_app_insert {A} (x : A) a b : NoDup (a ++ b) -> ~ In x (a ++ b) -> NoDup (a ++ x :: b).
Proof.
  induction a as [|y a IH]; cbn; intros H N; [constructor; assumption|].
  inversion H; subst. constructor; [|apply IH; tauto].
  rewrite in_app_iff in *. cbn. intuition congruence.
Qed.

Section Laws.
  Variable debug : bool.
  Notation L := list_source.
  Notation E := (list entry).

  (** ** Exactness *)
  Lemma run_prefix {R} (T : token_source R) n : forall m p r,
    n <= m -> run_events T debug n p r = firstn n (run_events T debug m p r).
  Proof.
    induction n as [|n IH]; intros m p r Hm; [reflexivity|].
    destruct m as [|m]; [lia|]. cbn [run_events].
    destruct (next_event T debug p r) as [[p' r'] x]. cbn [firstn]. f_equal. apply IH; lia.
  Qed.

  Lemma delivered_all {A} (es : list A) (rest : list (pres (option A))) :
    (forall e r, rest <> Ok (Some e) :: r) ->
    delivered (map (fun e => Ok (Some e)) es ++ rest) = es.
  Proof.
    intros H. induction es as [|e es IH]; cbn; [|congruence].
    destruct rest as [|[[e|]|e| |] r]; try reflexivity. destruct (H e r eq_refl).
  Qed.

  Lemma translation_exact l evs :
    (exists n es, map ev_data es = evs /\
       run_events L debug n parser0 l = map (fun e => Ok (Some e)) es ++ [Ok None]) <->
    (exists rest, t_stream (wraps l) evs rest).
  Proof.
    split.
    - intros (n & es & <- & H).
      assert (I : In EvStreamEnd (map ev_data es)).
      { destruct (grammar E L debug n l) as (rest & W & _ & N). cbv zeta in *.
        assert (Dl : delivered (run_events L debug n parser0 l) = es)
          by (rewrite H; apply delivered_all; discriminate).
        rewrite Dl in *. rewrite N, app_nil_r in W.
        - inversion W. cbn. right. rewrite !in_app_iff. cbn. auto.
        - rewrite H. rewrite nth_error_app2; rewrite map_length; [|lia].
          rewrite Nat.sub_diag. reflexivity. }
      assert (Hn : n = List.length es + 1).
      { apply (f_equal (@List.length _)) in H. rewrite app_length, map_length in H. cbn in H.
        rewrite <- H. clear. revert l. generalize parser0. induction n as [|n IH]; intros p l; [reflexivity|].
        cbn [run_events]. destruct (next_event L debug p l) as [[p' r'] x]. cbn. rewrite <- IH. reflexivity. }
      assert (H' : run_events L debug (List.length es) parser0 l = map (fun e => Ok (Some e)) es).
      { rewrite (run_prefix L _ n) by lia. rewrite H, firstn_app, firstn_all2 by (rewrite map_length; lia).
        rewrite map_length, Nat.sub_diag. apply app_nil_r. }
      pose proof (run_sound debug _ _ _ _ shape0 eq_refl H' I (known_in default_directives)
                    ltac:(intros h; reflexivity)) as (rest & S).
      exists rest. exact S.
    - intros (rest & H). destruct (stream_complete debug _ _ _ l 1 H eq_refl) as (es & M & Rn).
      exists (List.length evs + 1), es. split; [exact M|exact Rn].
  Qed.

  (** ** Accounting *)
  Lemma accounted n l :
    exists cs rest, wraps l = List.concat cs ++ rest /\
      Forall2 stands_for cs (map ev_data (delivered (run_events L debug n parser0 l))).
  Proof. apply run_calls; [apply shape0|apply inv0]. Qed.

  Lemma forall2_split {A B} (P : A -> B -> Prop) cs : forall ds i d,
    Forall2 P cs ds -> nth_error ds i = Some d ->
    exists c1 c c2, cs = c1 ++ c :: c2 /\ P c d /\ Forall2 P c1 (firstn i ds).
  Proof.
    induction cs as [|c cs IH]; intros ds i d F N; inversion F; subst; [destruct i; discriminate|].
    destruct i as [|i]; cbn [nth_error] in N.
    - injection N as ->. exists [], c, cs. cbn [firstn]. repeat split; auto.
    - destruct (IH _ _ _ H3 N) as (c1 & c' & c2 & -> & Hc & Hf).
      exists (c :: c1), c', c2. cbn [firstn]. repeat split; auto.
  Qed.

  Lemma nth_delivered n l i e :
    nth_error (delivered (run_events L debug n parser0 l)) i = Some e ->
    exists before c after, wraps l = before ++ c ++ after /\ stands_for c (ev_data e) /\
      exists cs, before = List.concat cs /\
        Forall2 stands_for cs (map ev_data (firstn i (delivered (run_events L debug n parser0 l)))).
  Proof.
    intros N. destruct (accounted n l) as (cs & rest & W & F).
    destruct (forall2_split _ _ _ i (ev_data e) F) as (c1 & c & c2 & -> & Hc & Hf).
    { rewrite nth_error_map, N. reflexivity. }
    exists (List.concat c1), c, (List.concat c2 ++ rest). split; [|split; [exact Hc|]].
    - rewrite W, concat_app. cbn [List.concat]. rewrite <- !app_assoc. reflexivity.
    - exists c1. split; [reflexivity|]. rewrite <- firstn_map. exact Hf.
  Qed.

  (** Chunks do not end with a directive. *)
  Lemma chunk_last c d b t : stands_for c d -> c = b ++ [t] -> is_directive t = false.
  Proof.
    assert (S : forall s b t, forallb structural s = true -> s = b ++ [t] -> is_directive t = false).
    { intros s b0 t0 H ->. rewrite forallb_app in H. apply andb_prop in H. destruct H as [_ H].
      cbn in H. destruct t0 as [[]|]; try reflexivity; discriminate H. }
    assert (L1 : forall (a : list maybe_token) x b t, a ++ [x] = b ++ [t] -> x = t).
    { intros a x b0 t0 H. apply app_inj_tail in H. tauto. }
    intros H Hb. destruct H;
      try (destruct b as [|? [|]]; cbn in Hb; try discriminate Hb; injection Hb; intros; subst; reflexivity);
      try (eapply S; eassumption).
    - apply L1 in Hb. subst; reflexivity.
    - assert (C : c = [] \/ exists b' x, c = b' ++ [x] /\ is_directive x = false).
      { assert (W : forall ps a g, written ps a g -> ps = [] \/ exists b' x, ps = b' ++ [x] /\ is_directive x = false).
        { intros ps a g [|? |? ?|? ? ?|? ? ?]; [left; reflexivity|right..].
          - exists [], (Tok (TAnchor a0)); auto.
          - exists [], (Tok (TTag h s0)); auto.
          - exists [Tok (TAnchor a0)], (Tok (TTag h s0)); auto.
          - exists [Tok (TTag h s0)], (Tok (TAnchor a0)); auto. }
        destruct H0; try (eapply W; eassumption); right.
        - exists [], (Tok (TAlias n)). auto.
        - eexists _, _; split; reflexivity.
        - eexists _, _; split; reflexivity. }
      destruct C as [->|(b' & x & -> & Hx)].
      + rewrite app_nil_r in Hb. eapply S; eassumption.
      + rewrite app_assoc in Hb. apply L1 in Hb. subst; exact Hx.
  Qed.

  Lemma chunks_last cs ds b t :
    Forall2 stands_for cs ds -> List.concat cs = b ++ [t] -> is_directive t = false.
  Proof.
    intros F. revert b. induction F as [|c d cs ds H F IH]; intros b E; [destruct b; discriminate E|].
    cbn [List.concat] in E.
    destruct (List.concat cs) as [|x r].
    - rewrite app_nil_r in E. eapply chunk_last; eassumption.
    - destruct (@exists_last _ (x :: r)) as (b' & y & Hy); [discriminate|].
      rewrite Hy in *. rewrite app_assoc in E. apply app_inj_tail in E. destruct E as [_ ->].
      eapply IH. reflexivity.
  Qed.

  (** ** Documents *)
  Lemma document_directives n l i e d implicit :
    nth_error (delivered (run_events L debug n parser0 l)) i = Some e ->
    ev_data e = EvDocumentStart d implicit ->
    exists before ds after,
      wraps l = before ++ map directive_token ds ++ after /\
      (forall b t, before = b ++ [t] -> is_directive t = false) /\
      distinct ds /\ d = directives_of ds /\
      (if implicit then ds = [] else exists r, after = Tok TDocumentStart :: r).
  Proof.
    intros N Hd. destruct (nth_delivered _ _ _ _ N) as (before & c & after & W & S & cs & -> & F).
    rewrite Hd in S.
    assert (NT : forall c, ~ node_tokens c (EvDocumentStart d implicit)) by (intros c' H; inversion H).
    inversion S; subst; try (exfalso; eapply NT; eassumption).
    - exists (List.concat cs), ds, (Tok TDocumentStart :: after). rewrite <- app_assoc in W.
      split; [exact W|]. split; [|eauto]. intros b t. eapply chunks_last; eassumption.
    - exists (List.concat cs), [], after. split; [exact W|].
      split; [intros b t; eapply chunks_last; eassumption|]. split; [apply (distinct_nil)|]. auto.
  Qed.

  Lemma marks_chunk c d : stands_for c d -> token_marks c = explicit_marks [d].
  Proof.
    assert (A : forall a b, token_marks (a ++ b) = token_marks a ++ token_marks b)
      by (intros; apply flat_map_app).
    assert (S : forall s, forallb structural s = true -> token_marks s = []).
    { induction s as [|t s IH]; [reflexivity|]. cbn [forallb]. intros H. apply andb_prop in H.
      destruct H as [H1 H2]. cbn [token_marks flat_map]. change (flat_map _ s) with (token_marks s).
      rewrite (IH H2). destruct t as [[]|]; try reflexivity; discriminate H1. }
    assert (D : forall ds, token_marks (map directive_token ds) = [])
      by (induction ds as [|[a b|h q] ds IH]; cbn; auto).
    assert (Wr : forall ps a g, written ps a g -> token_marks ps = [])
      by (intros ps a g [|? |? ?|? ? ?|? ? ?]; reflexivity).
    intros H; destruct H; try reflexivity; try (rewrite S by assumption; reflexivity).
    - rewrite A, D. reflexivity.
    - rewrite A, S by assumption.
      destruct H0; rewrite ?A; try (erewrite Wr by eassumption); reflexivity.
  Qed.

  Lemma marks_truthful n l :
    exists read rest, wraps l = read ++ rest /\
      token_marks read = explicit_marks (map ev_data (delivered (run_events L debug n parser0 l))).
  Proof.
    destruct (accounted n l) as (cs & rest & W & F). exists (List.concat cs), rest.
    split; [exact W|]. clear W. induction F as [|c d cs ds H F IH]; [reflexivity|].
    cbn [List.concat]. unfold token_marks. rewrite flat_map_app. fold (token_marks c).
    fold (token_marks (List.concat cs)). rewrite IH, (marks_chunk _ _ H).
    cbn [explicit_marks flat_map]. rewrite app_nil_r. reflexivity.
  Qed.

  (** ** Nodes *)
  Lemma node_tags n l i e :
    nth_error (delivered (run_events L debug n parser0 l)) i = Some e ->
    match ev_data e with
    | EvScalar nd v =>
        exists before s ps content after g, wraps l = before ++ s ++ ps ++ content ++ after /\
          forallb structural s = true /\ written ps (n_anchor nd) g /\
          n_tag nd = delivered_tag true g /\
          match content with
          | [] => v = empty_scalar_like
          | [Tok (TScalar t st)] => v = Eager t st
          | [Lazy d] => v = LazyS d
          | _ => False
          end
    | EvSequenceStart nd | EvMappingStart nd =>
        exists before s ps after g, wraps l = before ++ s ++ ps ++ after /\
          forallb structural s = true /\ written ps (n_anchor nd) g /\
          n_tag nd = delivered_tag false g
    | _ => True
    end.
  Proof.
    intros N. destruct (nth_delivered _ _ _ _ N) as (before & c & after & W & S & _).
    destruct S; try exact I. destruct H0; try exact I.
    - exists before, s, ps, [Tok (TScalar t st)], after, g. rewrite <- !app_assoc in W. auto.
    - exists before, s, ps, [Lazy d], after, g. rewrite <- !app_assoc in W. auto.
    - exists before, s, ps, [], after, g. rewrite <- !app_assoc in W. auto.
    - exists before, s, ps, after, g. rewrite <- !app_assoc in W. auto.
    - exists before, s, ps, after, g. rewrite <- !app_assoc in W. auto.
  Qed.

  (** ** Conflicting directives *)
  Lemma existsb_get tags h :
    existsb (str_eqb h) (map (fun hp => cow_str (fst hp)) tags) = true <-> tag_get tags h <> None.
  Proof.
    destruct (tag_get tags h) eqn:G.
    - split; [discriminate|]. intros _. apply existsb_exists. exists h. split; [|apply str_eqb_refl].
      destruct (in_dec (list_eq_dec N.eq_dec) h (map (fun hp => cow_str (fst hp)) tags)); [assumption|].
      exfalso. apply tag_get_none in n. congruence.
    - split; [|congruence]. intros H. apply existsb_exists in H. destruct H as (x & I & X).
      apply str_eqb_eq in X. subst x. apply tag_get_none in G. tauto.
  Qed.

  Lemma conflict_scan ds : forall fuel end_ seen ver tags handles p l ts err,
    List.length ds < fuel ->
    (forall h, In h handles <-> In h (map (fun hp => cow_str (fst hp)) tags)) ->
    first_conflict seen handles ds = Some err ->
    wraps l = map directive_token ds ++ ts ->
    exists l', scan_directives E L fuel end_ seen (mkDirs ver tags) p l = (p, l', Err err).
  Proof.
    induction ds as [|d ds IH]; intros fuel end_ seen ver tags handles p l ts err Hf Hh C W;
      (destruct fuel as [|fuel]; [inversion Hf|]); [discriminate C|].
    destruct (wraps_cons _ _ _ W) as (m & l1 & -> & W1).
    cbn [scan_directives]. unfold pbind, peek, peek_opt; cbn -[tag_insert scan_directives].
    destruct d as [a b|h q]; cbn [first_conflict] in C; cbn -[tag_insert scan_directives].
    - destruct seen; [injection C as <-; eexists; reflexivity|].
      apply (IH fuel m true (a, b) tags handles p l1 ts err); auto. cbn in Hf; lia.
    - assert (X : existsb (str_eqb (cow_str h)) handles =
                  existsb (str_eqb (cow_str h)) (map (fun hp => cow_str (fst hp)) tags)).
      { apply eq_iff_eq_true. rewrite !existsb_exists. split; intros (x & I & Hx); exists x; (split; [apply Hh|]; assumption). }
      rewrite X in C. destruct (existsb _ _) eqn:Ex in C.
      + injection C as <-. apply existsb_get in Ex.
        destruct (tag_get tags (cow_str h)); [eexists; reflexivity|congruence].
      + destruct (tag_get tags (cow_str h)) eqn:G.
        * exfalso. assert (Y := proj2 (existsb_get tags (cow_str h)) ltac:(congruence)). congruence.
        * apply (IH fuel m seen ver (tag_insert tags h q) (cow_str h :: handles) p l1 ts err); auto.
          -- cbn in Hf; lia.
          -- intros h'. unfold tag_insert. rewrite map_app, in_app_iff. cbn. rewrite Hh. tauto.
  Qed.

  Lemma conflict_none ds : forall seen handles,
    NoDup handles ->
    (first_conflict seen handles ds = None <->
     List.length (versions ds) <= (if seen : bool then 0 else 1) /\
     NoDup (handles ++ map (fun hp => cow_str (fst hp)) (declared ds))).
  Proof.
    induction ds as [|[a b|h q] ds IH]; intros seen handles Hn.
    - cbn. rewrite app_nil_r. split; [intros _; split; [lia|exact Hn]|reflexivity].
    - cbn [first_conflict].
      change (versions (DVersion a b :: ds)) with ((a, b) :: versions ds).
      change (declared (DVersion a b :: ds)) with (declared ds). cbn [List.length].
      destruct seen; [split; [discriminate|lia]|].
      rewrite (IH true handles Hn). split; intros [H1 H2]; (split; [lia|exact H2]).
    - cbn [first_conflict].
      change (versions (DTag h q :: ds)) with (versions ds).
      change (declared (DTag h q :: ds)) with ((h, q) :: declared ds). cbn [map fst].
      destruct (existsb _ _) eqn:X.
      + split; [discriminate|]. intros [_ H]. exfalso.
        apply existsb_exists in X. destruct X as (x & I & X). apply str_eqb_eq in X. subst x.
        apply NoDup_remove_2 in H. apply H, in_or_app. auto.
      + assert (Hx : ~ In (cow_str h) handles).
        { intros I. assert (Y : existsb (str_eqb (cow_str h)) handles = true).
          { apply existsb_exists. exists (cow_str h). split; [exact I|apply str_eqb_refl]. }
          congruence. }
        rewrite (IH seen (cow_str h :: handles)) by (constructor; assumption).
        split; intros [H1 H2]; (split; [exact H1|]).
        * cbn [app] in H2. inversion H2; subst. apply NoDup_app_insert; assumption.
        * cbn [app]. apply NoDup_remove in H2. destruct H2. constructor; assumption.
  Qed.

  Lemma distinct_iff ds : distinct ds <-> first_conflict false default_handles ds = None.
  Proof.
    rewrite conflict_none.
    - unfold distinct. rewrite map_app. reflexivity.
    - repeat constructor; cbn; intuition discriminate.
  Qed.

  Lemma conflict_call i f D l ds ts err :
    first_conflict false default_handles ds = Some err ->
    wraps l = map directive_token ds ++ ts ->
    snd (next_event L debug (mkParser (StDocumentStart i f) [] D false) l) = Err err.
  Proof.
    intros C W. destruct ds as [|d ds]; [discriminate C|].
    destruct (wraps_cons _ _ _ W) as (m & l1 & -> & W1).
    unfold next_event; cbn [event_loop ps_done].
    unfold state_transition, pbind at 1. cbn [ps_top].
    destruct (conflict_scan (d :: ds) (S (List.length (mkEntry (directive_token d) m :: l1))) m false
                default_version default_tags default_handles
                (mkParser (StDocumentStart i f) [] D false)
                (mkEntry (directive_token d) m :: l1) ts err) as (l' & H); auto.
    { change (wraps l1 = map directive_token ds ++ ts) in W1.
      apply (f_equal (@List.length _)) in W1. unfold wraps in W1.
      rewrite map_length, app_length, map_length in W1. cbn [List.length]. lia. }
    { intros h. cbn. tauto. }
    rewrite document_start_rest by (right; destruct d; discriminate).
    assert (S : scan_document_directives E L (mkParser (StDocumentStart i f) [] D false)
                  (mkEntry (directive_token d) m :: l1)
                = (mkParser (StDocumentStart i f) [] D false, l', Err err)).
    { unfold scan_document_directives. set (F := scan_directives E L) in *. clearbody F.
      unfold pbind at 1, peek, peek_opt, pbind at 1. cbn [L ts_look map_err hd_error pret].
      unfold pret at 1. unfold budget, pbind at 1. cbn [L ts_budget]. unfold pbind at 1.
      change default_directives with (mkDirs default_version default_tags). cbn [e_read].
      rewrite H. reflexivity. }
    unfold document_rest, pbind at 1, peek at 1, peek_opt, pbind at 1. cbn [L ts_look map_err hd_error].
    unfold pret at 1. cbv zeta.
    destruct d; cbn [directive_token e_marker e_wrap maybe_marker token_marker] in *;
      rewrite andb_false_r; unfold pbind at 1; rewrite S; reflexivity.
  Qed.

  Lemma distinct_call i f D l ds ts :
    distinct ds -> wraps l = map directive_token ds ++ Tok TDocumentStart :: ts ->
    exists p' l' s e, wraps l' = ts /\
    next_event L debug (mkParser (StDocumentStart i f) [] D false) l
      = (p', l', Ok (Some (mkEvent s e (EvDocumentStart (directives_of ds) false)))).
  Proof.
    intros Hd W.
    destruct l as [|x l]; [destruct ds; discriminate|].
    destruct (document_directives_ok debug ds (mkParser (StDocumentStart i f) [] D false)
                (x :: l) _ Hd W) as (s & e & l2 & W2 & E2).
    { exists MDocumentStart; split; [reflexivity|]. in_cases. }
    destruct (wraps_cons _ _ _ W2) as (m & l3 & -> & W3).
    eexists _, l3, s, m. split; [exact W3|].
    unfold next_event; cbn [event_loop ps_done].
    unfold state_transition, pbind at 1. cbn [ps_top].
    assert (M : In (e_marker x) [MVersionDirective; MTagDirective; MDocumentStart]).
    { destruct ds as [|[a b|h q] ds]; injection W as W _; unfold e_marker; rewrite W; cbn; auto. }
    rewrite document_start_rest by
      (right; intros M'; rewrite M' in M; cbn in M; intuition discriminate).
    unfold document_rest, pbind at 1, peek at 1, peek_opt, pbind at 1. cbn [L ts_look map_err hd_error].
    unfold pret at 1.
    cbn [In] in M. destruct M as [M|[M|[M|[]]]]; rewrite <- M; cbv zeta;
      rewrite andb_false_r; unfold pbind at 1; rewrite E2; reflexivity.
  Qed.

  Lemma duplicate_directives i f D l ds ts :
    wraps l = map directive_token ds ++ Tok TDocumentStart :: ts ->
    let result := snd (next_event L debug (mkParser (StDocumentStart i f) [] D false) l) in
    match first_conflict false default_handles ds with
    | Some err => result = Err err
    | None => distinct ds /\ exists s e,
        result = Ok (Some (mkEvent s e (EvDocumentStart (directives_of ds) false)))
    end.
  Proof.
    intros W. cbv zeta. destruct (first_conflict _ _ _) eqn:C.
    - exact (conflict_call _ _ _ _ _ _ _ C W).
    - apply distinct_iff in C. split; [exact C|].
      destruct (distinct_call i f D l ds ts C W) as (p' & l' & s & e & _ & ->).
      exists s, e; reflexivity.
  Qed.

  Lemma default_handle_call i f D l handle prefix ts :
    In (cow_str handle) [bytes "!"; bytes "!!"] ->
    wraps l = Tok (TTagDirective handle prefix) :: ts ->
    snd (next_event L debug (mkParser (StDocumentStart i f) [] D false) l)
    = Err DuplicateTagDirective.
  Proof.
    intros H W. apply (conflict_call i f D l [DTag handle prefix] ts); [|exact W].
    cbn [first_conflict]. destruct H as [<-|[<-|[]]]; reflexivity.
  Qed.
End Laws.
