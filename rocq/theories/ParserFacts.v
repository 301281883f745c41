(** Consequences of the grammar and of the effects of transitions. *)
From Verif Require Export ParserEffects.

Scheme wf_node_mut := Induction for wf_node Sort Prop
  with wf_entries_mut := Induction for wf_entries Sort Prop
  with wf_pairs_mut := Induction for wf_pairs Sort Prop.
Combined Scheme wf_mutind from wf_node_mut, wf_entries_mut, wf_pairs_mut.

(** ** The end of the stream *)
Lemma no_stream_end :
  (forall k w, wf_node k w -> ~ In EvStreamEnd w) /\
  (forall w, wf_entries w -> ~ In EvStreamEnd w) /\
  (forall w, wf_pairs w -> ~ In EvStreamEnd w).
Proof.
  apply wf_mutind; cbn; intros; rewrite ?in_app_iff; cbn; intuition congruence.
Qed.

Lemma documents_no_stream_end w : wf_documents w -> ~ In EvStreamEnd w.
Proof.
  induction 1 as [|x r Hx Hr IH]; [intros []|]. rewrite in_app_iff. intros [H|H]; [|auto].
  destruct Hx as [d i j|d i j x Hx]; cbn in H; rewrite ?in_app_iff in H; cbn in H.
  - intuition congruence.
  - pose proof (proj1 no_stream_end _ _ Hx). intuition congruence.
Qed.

Lemma stream_end_last a rest :
  wf_stream (a ++ rest) -> In EvStreamEnd a -> rest = [].
Proof.
  intros H Ha. remember (a ++ rest) as w eqn:E. destruct H as [x r Hx Hr].
  assert (N : ~ In EvStreamEnd (EvStreamStart :: x ++ r)).
  { intros [H|H]; [discriminate|].
    apply (documents_no_stream_end (x ++ r)); [|exact H]. constructor; assumption. }
  set (b := EvStreamStart :: x ++ r) in *.
  replace (EvStreamStart :: x ++ r ++ [EvStreamEnd]) with (b ++ [EvStreamEnd]) in E
    by (subst b; cbn; rewrite <- app_assoc; reflexivity).
  clearbody b. clear -E N Ha.
  destruct (in_split _ _ Ha) as (a1 & a2 & ->). rewrite <- app_assoc in E; cbn in E.
  revert b E N; induction a1 as [|y a1 IH]; intros [|z b] E N; cbn in E.
  - injection E as E. symmetry in E. apply app_eq_nil in E. apply E.
  - injection E as -> E. destruct N; left; reflexivity.
  - injection E as _ E. destruct a1; discriminate.
  - injection E as -> E. apply (IH ltac:(apply in_or_app; right; left; reflexivity) b E).
    intros H; apply N; right; exact H.
Qed.

(** ** Placement *)
Lemma placed_app ctx a b : placed ctx (a ++ b) = true -> placed ctx a = true.
Proof.
  revert ctx; induction a as [|e a IH]; intros ctx H; [reflexivity|].
  destruct e; cbn in *; try (apply IH; exact H);
    try (apply andb_prop in H; destruct H as [H1 H2]; rewrite H1; cbn; apply IH; exact H2).
  - destruct (hint ctx); [apply IH; exact H|discriminate].
  - destruct ctx as [|[| |[]] c]; try discriminate; apply IH; exact H.
  - destruct ctx as [|[| |[]] c]; try discriminate; apply IH; exact H.
Qed.

Lemma hinted_kind ctx n : hint ctx = Some (n_kind n) -> hinted ctx n = true.
Proof. unfold hinted; intros ->; destruct (n_kind n); reflexivity. Qed.

Lemma node_placed :
  (forall k w, wf_node k w -> forall ctx r, hint ctx = Some k ->
     placed ctx (w ++ r) = placed (filled ctx) r) /\
  (forall w, wf_entries w -> forall c r, placed (InSeq :: c) (w ++ r) = placed (InSeq :: c) r) /\
  (forall w, wf_pairs w -> forall c r,
     placed (InMap true :: c) (w ++ r) = placed (InMap true :: c) r).
Proof.
  apply wf_mutind.
  - intros k name ctx r H. cbn [app placed]. rewrite H. reflexivity.
  - intros n s ctx r H. cbn [app placed]. rewrite hinted_kind by exact H. reflexivity.
  - intros n body Hb IH ctx r H. cbn [app placed]. rewrite hinted_kind by exact H.
    rewrite <- app_assoc, IH. reflexivity.
  - intros n body Hb IH ctx r H. cbn [app placed]. rewrite hinted_kind by exact H.
    rewrite <- app_assoc, IH. reflexivity.
  - intros; reflexivity.
  - intros x r Hx IHx Hr IHr c r'. rewrite <- app_assoc, IHx by reflexivity. apply IHr.
  - intros; reflexivity.
  - intros k v r Hk IHk Hv IHv Hr IHr c r'.
    rewrite <- !app_assoc, IHk by reflexivity. cbn [filled negb].
    rewrite IHv by reflexivity. apply IHr.
Qed.

Lemma documents_placed w r : wf_documents w -> placed [] (w ++ r) = placed [] r.
Proof.
  induction 1 as [|x d Hx Hd IH]; [reflexivity|]. rewrite <- app_assoc, <- IH.
  destruct Hx as [ds i j|ds i j x Hx]; [reflexivity|].
  cbn [app placed]. rewrite <- app_assoc. rewrite (proj1 node_placed _ _ Hx) by reflexivity.
  reflexivity.
Qed.

Lemma stream_placed w : wf_stream w -> placed [] w = true.
Proof.
  intros [x r Hx Hr]. cbn [placed]. rewrite app_assoc, documents_placed; [reflexivity|].
  constructor; assumption.
Qed.

(** ** Running a parser from its initial state *)
Section Runs.
  Variable R : Type.
  Variable T : token_source R.
  Variable debug : bool.

  Lemma grammar n (r : R) :
    let xs := run_events T debug n parser0 r in
    let evs := map ev_data (delivered xs) in
    exists rest,
      wf_stream (evs ++ rest) /\
      (In EvStreamEnd evs -> rest = []) /\
      (nth_error xs (List.length (delivered xs)) = Some (Ok None) -> rest = []).
  Proof.
    cbv zeta. destruct (run_lang R T debug n parser0 r shape0) as (rest & H & N).
    exists rest. split; [exact H|]. split; [|exact N].
    apply stream_end_last, H.
  Qed.

  Lemma placement n (r : R) :
    placed [] (map ev_data (delivered (run_events T debug n parser0 r))) = true.
  Proof.
    destruct (grammar n r) as (rest & H & _).
    eapply placed_app, stream_placed, H.
  Qed.

  Lemma tags_resolve_from n p (r : R) d :
    (forall h, tag_get (d_tags (ps_dirs p)) h = None <-> tag_get (d_tags d) h = None) ->
    let xs := run_events T debug n p r in
    forall i e h s,
      nth_error xs i = Some (Ok (Some e)) -> event_tag (ev_data e) = Some (h, s) ->
      tag_get (d_tags (active d (map ev_data (all_events (firstn i xs))))) (cow_str h) <> None.
  Proof.
    revert p r d; induction n as [|n IH]; intros p r d Hd; cbv zeta;
      intros i e h s Hi Ht; [destruct i; discriminate|].
    cbn [run_events] in *.
    destruct (next_event T debug p r) as [[p' r'] x] eqn:E.
    destruct (next_event_effect R T debug p _ _ _ _ E) as (H1 & _).
    destruct i as [|i]; cbn [nth_error firstn] in *.
    - injection Hi as ->. cbn. intros G. apply Hd in G. revert G.
      unfold effect_ok in H1.
      destruct (ev_data e); cbn in Ht; try discriminate;
        destruct H1 as (_ & _ & H1); eapply H1; exact Ht.
    - assert (K : forall d', (forall h, tag_get (d_tags (ps_dirs p')) h = None <->
                                        tag_get (d_tags d') h = None) ->
                  tag_get (d_tags (active d' (map ev_data (all_events
                    (firstn i (run_events T debug n p' r')))))) (cow_str h) <> None).
      { intros d' Hd'. apply (IH p' r' d' Hd' i e h s Hi Ht). }
      unfold effect_ok in H1.
      destruct x as [[y|]|y| |]; cbn [all_events].
      + unfold active; cbn [map fold_left].
        destruct (ev_data y); destruct H1 as [H1 _]; apply K; rewrite H1; try exact Hd.
        intros h'. cbn [d_tags]. apply tag_get_owned.
      + apply K. destruct H1 as [-> _]. exact Hd.
      + apply K. destruct H1 as [-> _]. exact Hd.
      + apply K. destruct H1 as [-> _]. exact Hd.
      + apply K. destruct H1 as [-> _]. exact Hd.
  Qed.

  (** ** An exhausted source *)
  Variable dead : R -> Prop.
  Hypothesis dead_look : forall r, dead r -> exists r', ts_look T r = (r', Ok None) /\ dead r'.
  Hypothesis dead_pop : forall r, dead r -> exists r', ts_pop T r = (r', Ok None) /\ dead r'.

  Lemma peek_dead p r : dead r ->
    exists r', peek R T p r = (p, r', Err ParserEOF) /\ dead r'.
  Proof.
    intros D. destruct (dead_look r D) as (r' & E & D').
    exists r'. unfold peek, peek_opt, pbind; rewrite E; cbn. auto.
  Qed.
  Lemma pop_dead p r : dead r ->
    exists r', pop R T p r = (p, r', Err ParserEOF) /\ dead r'.
  Proof.
    intros D. destruct (dead_pop r D) as (r' & E & D').
    exists r'. unfold pop, pbind; rewrite E; cbn. auto.
  Qed.

  Lemma transition_dead p r : dead r -> ps_done p = false ->
    exists r', state_transition R T debug p r = (p, r', Err ParserEOF) /\ dead r'.
  Proof.
    intros D N. destruct (peek_dead p r D) as (r1 & E1 & D1).
    destruct (pop_dead p r D) as (r2 & E2 & D2).
    unfold state_transition, pbind at 1.
    destruct (ps_top p) as [| |i f| | | | |f|f| |f| | | |f|f].
    - exists r1. unfold stream_start, pbind; rewrite E1; auto.
    - exists r2. unfold stream_end, pbind; rewrite N. unfold consume, pbind; rewrite E2; auto.
    - destruct i.
      + exists r1. unfold document_start, pbind at 1, pret. unfold pbind at 1. rewrite E1. auto.
      + exists r1. unfold document_start, pbind at 1, pbind at 1.
        cbn [budget]. cbn [skip_document_ends]. unfold pbind at 1. unfold budget.
        cbn [skip_document_ends]. unfold pbind. rewrite E1. auto.
    - exists r1. unfold explicit_document_content, pbind; rewrite E1; auto.
    - exists r1. unfold document_end, pbind; rewrite E1; auto.
    - exists r1. unfold parse_node, pbind; rewrite E1; auto.
    - exists r1. unfold parse_node, pbind; rewrite E1; auto.
    - destruct f; [exists r2|exists r1]; unfold block_sequence_entry, pbind, pret;
        rewrite ?E1, ?E2; auto.
    - exists r1; destruct f; unfold block_mapping_key, pbind, pret; rewrite E1; auto.
    - exists r1. unfold block_mapping_value, pbind; rewrite E1; auto.
    - destruct f; [exists r2|exists r1]; unfold flow_sequence_entry, pbind, pret;
        rewrite ?E1, ?E2; auto.
    - exists r1. unfold flow_sequence_entry_mapping_key, pbind; rewrite E1; auto.
    - exists r1. unfold flow_sequence_entry_mapping_value, pbind; rewrite E1; auto.
    - exists r1. unfold flow_sequence_entry_mapping_end, pbind; rewrite E1; auto.
    - destruct f; [exists r2|exists r1]; unfold flow_mapping_key, pbind, pret;
        rewrite ?E1, ?E2; auto.
    - exists r1. unfold flow_mapping_value, pbind; rewrite E1; auto.
  Qed.

  Lemma run_dead n p r : dead r ->
    run_events T debug n p r = repeat (if ps_done p then Ok None else Err ParserEOF) n.
  Proof.
    intros D. destruct (ps_done p) eqn:N; [apply run_done, N|].
    revert r D; induction n as [|n IH]; intros r D; cbn [run_events repeat]; [reflexivity|].
    destruct (transition_dead p r D N) as (r' & E & D').
    unfold next_event. cbn [event_loop]. rewrite N, E. f_equal. apply IH, D'.
  Qed.
End Runs.
