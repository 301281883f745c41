(** The events between two errors. *)
From Verif Require Export ParserFacts.

(** The states of a document's root node. *)
Definition rooty (s : state) : bool :=
  match s with StBlockNode | StFlowNode | StDocumentContent => true | _ => false end.
Definition inner (s : state) : Prop := rooty s = false.

(** The root node of a document is parsed at the bottom of the stack only. *)
Definition rooted (p : parser) : Prop :=
  Forall inner (ps_stack p) /\ (rooty (ps_top p) = true -> ps_stack p = [StDocumentEnd]).

Lemma rooted_pop p : rooted p -> rooted (st_pop p).
Proof.
  destruct p as [s [|a st] d b]; unfold rooted, st_pop; cbn; [auto|].
  intros [H _]. inversion H as [|? ? Ha Hst]; subst. split; [exact Hst|]. congruence.
Qed.
Lemma rooted_top s p : inner s -> rooted p -> rooted (st_top s p).
Proof. intros S [H _]. split; [exact H|]. cbn. unfold inner in S. congruence. Qed.
Lemma rooted_push s p : inner s -> inner (ps_top p) -> rooted p -> rooted (st_push s p).
Proof. intros S K [H _]. split; [constructor; assumption|]. cbn. unfold inner in K. congruence. Qed.
Lemma rooted_dirs d p : rooted p -> rooted (set_dirs d p).
Proof. intros H; exact H. Qed.
Lemma rooted_done p : rooted p -> rooted (set_done p).
Proof. intros H; exact H. Qed.

Section Rooted.
  Variable R : Type.
  Variable T : token_source R.
  Variable debug : bool.

  Definition keeps {A} (m : P R A) (p : parser) : Prop := always R m p (fun _ => rooted).

  Lemma keeps_checked s e n b mk p : rooted p -> keeps (checked R s e n b mk) p.
  Proof. intros H. apply always_checked; intros; exact H. Qed.
  Lemma keeps_bind {A B} (m : P R A) (k : A -> P R B) p :
    always R m p (fun x p' => match x with Ok a => keeps (k a) p' | _ => rooted p' end) ->
    keeps (pbind R m k) p.
  Proof.
    intros H. apply always_bind. eapply always_weaken; [exact H|]. intros [a|e| |] p' K; exact K.
  Qed.
  Lemma keeps_reads {A B} (m : P R A) (k : A -> P R B) p :
    reads R m -> rooted p -> (forall a, keeps (k a) p) -> keeps (pbind R m k) p.
  Proof. intros M H K. apply keeps_bind, M. intros [a|e| |]; auto. Qed.
  Lemma keeps_read {A} (m : P R A) p : reads R m -> rooted p -> keeps m p.
  Proof. intros M H. apply M. intros _. exact H. Qed.
  Lemma keeps_upd {B} f (k : unit -> P R B) p : keeps (k tt) (f p) -> keeps (pbind R (pupd R f) k) p.
  Proof. intros H. apply keeps_bind, always_upd. exact H. Qed.

  Ltac rd := first [ simple apply reads_peek | simple apply reads_pop | simple apply reads_consume
    | simple apply reads_consume_scalar | simple apply reads_assert | simple apply reads_budget
    | simple apply reads_properties | simple apply reads_skip
    | simple apply reads_scan_document_directives | simple apply reads_ret | simple apply reads_fail
    | simple apply reads_bind; [rd|intros ?; rd]
    | match goal with |- reads _ (match ?x with _ => _ end) => destruct x; rd end ].
  Ltac ok := repeat first [assumption | match goal with
    | |- rooted (st_pop _) => apply rooted_pop
    | |- rooted (st_top _ _) => apply rooted_top; [reflexivity|]
    | |- rooted (st_push _ _) => apply rooted_push; [reflexivity|reflexivity|]
    | |- rooted (set_dirs _ _) => apply rooted_dirs
    | |- rooted (set_done _) => apply rooted_done
    end].
  Ltac walk := repeat (cbv beta zeta; match goal with
    | |- keeps (checked _ _ _ _ _ _) _ => apply keeps_checked; solve [ok]
    | |- keeps (pbind _ (pupd _ _) _) _ => apply keeps_upd
    | |- keeps (pbind _ _ _) _ => apply keeps_reads; [solve [rd]|solve [ok]|intros ?]
    | |- keeps (pret _ _) _ => apply keeps_read; [apply reads_ret|solve [ok]]
    | |- keeps (pfail _ _) _ => apply keeps_read; [apply reads_fail|solve [ok]]
    | |- keeps (match ?x with _ => _ end) _ => destruct x
    end).

  Lemma keeps_node b k p : rooted p -> keeps (parse_node R T b k) p.
  Proof.
    intros H. unfold parse_node, node_content, node_variant, node_empty, deliver. walk.
  Qed.

  Lemma keeps_document_start i f d : keeps (document_start R T i f) (mkParser (StDocumentStart i f) [] d false).
  Proof.
    assert (H : rooted (mkParser (StDocumentStart i f) [] d false)) by (split; [constructor|discriminate]).
    unfold document_start, activate, deliver. walk.
    all: try (apply keeps_read; [rd|]; split; [repeat constructor|reflexivity]).
  Qed.

  Lemma keeps_transition p : shape p -> rooted p -> ps_done p = false -> keeps (state_transition R T debug) p.
  Proof.
    destruct p as [s st d dn]; cbn [ps_done]; intros [Hs _] Hr ->.
    unfold shape_of in Hs; cbn in Hs.
    intros r p' r' x. unfold state_transition, pbind at 1; cbn [ps_top].
    revert r p' r' x.
    match goal with |- forall r p' r' x, ?m ?q r = _ -> rooted p' => change (keeps m q) end.
    destruct s; cbn in Hs; try (apply keeps_node; exact Hr); try (subst st; apply keeps_document_start);
      unfold stream_start, explicit_document_content, document_end, block_sequence_entry, block_mapping_key, block_mapping_value,
      flow_sequence_entry, flow_sequence_entry_mapping_key, flow_sequence_entry_mapping_value, flow_sequence_entry_mapping_end,
      flow_mapping_key, flow_mapping_value, stream_end, fetch_end, empty_scalar, deliver, activate;
    walk.
  all: try (apply keeps_node; solve [ok]).
  apply (keeps_reads (fun p r => (p, r, Ok (ps_done p)))); [|exact Hr|intros ?; walk].
  intros q Q H r p' r' y E; inversion E; subst; apply H.
  Qed.
End Rooted.

(** ** Completing what is left to the left *)
Notation some := (EvAlias (Borrowed [])).
Definition plain_node (k : node_kind) : node := mkNode None None k.

Lemma some_node k : wf_node k [some].
Proof. constructor. Qed.
Lemma seq_node k x : wf_entries x -> wf_node k (EvSequenceStart (plain_node k) :: x ++ [EvSequenceEnd]).
Proof. intros H. apply (wf_sequence (plain_node k)), H. Qed.
Lemma map_node k x : wf_pairs x -> wf_node k (EvMappingStart (plain_node k) :: x ++ [EvMappingEnd]).
Proof. intros H. apply (wf_mapping (plain_node k)), H. Qed.
Lemma compact_node k v x : wf_pairs v -> wf_entries x ->
  wf_node k (EvSequenceStart (plain_node k) :: EvMappingStart (plain_node Entry) :: v ++ EvMappingEnd :: x ++ [EvSequenceEnd]).
Proof.
  intros V X.
  pose proof (seq_node k _ (wf_entries_cons _ _ (map_node Entry v V) X)) as H.
  cbn in H. rewrite <- !app_assoc in H. exact H.
Qed.

Definition completes (x : list event_data) : Prop := forall k, exists pre, wf_node k (pre ++ x).

Lemma seg_completes s u : poppable s = true -> rooty s = false -> seg s u -> completes u.
Proof.
  intros P Ro S k. destruct s; try discriminate; cbn [seg] in S.
  1, 4: destruct S as (x & Hx & ->); exists [EvSequenceStart (plain_node k)]; apply seq_node, Hx.
  1, 6: destruct S as (x & Hx & ->); exists [EvMappingStart (plain_node k)]; apply map_node, Hx.
  1, 5: destruct S as (v & x & Hv & Hx & ->); exists [EvMappingStart (plain_node k); some];
    pose proof (map_node k _ (wf_pairs_cons _ _ _ (some_node Key) Hv Hx)) as H;
    cbn in *; rewrite <- ?app_assoc in H; exact H.
  - destruct S as (a & v & x & Ha & Hv & Hx & ->).
    exists [EvSequenceStart (plain_node k); EvMappingStart (plain_node Entry)].
    pose proof (compact_node k _ x (wf_pairs_cons _ _ _ Ha Hv wf_pairs_nil) Hx) as H.
    cbn in *. rewrite app_nil_r, <- ?app_assoc in H. exact H.
  - destruct S as (v & x & Hv & Hx & ->).
    exists [EvSequenceStart (plain_node k); EvMappingStart (plain_node Entry); some].
    pose proof (compact_node k _ x (wf_pairs_cons _ _ _ (some_node Key) Hv wf_pairs_nil) Hx) as H.
    cbn in *. rewrite app_nil_r, <- ?app_assoc in H. exact H.
  - destruct S as (x & Hx & ->).
    exists [EvSequenceStart (plain_node k); EvMappingStart (plain_node Entry)].
    apply (compact_node k [] x wf_pairs_nil Hx).
Qed.

Lemma below_completes s u x :
  poppable s = true -> rooty s = false -> seg s u -> completes x -> completes (x ++ u).
Proof.
  intros P Ro S C k.
  destruct (C Entry) as [pe He], (C Key) as [pk Hk], (C Value) as [pv Hv].
  destruct s; try discriminate; cbn [seg] in S.
  1, 4: destruct S as (y & Hy & ->); exists (EvSequenceStart (plain_node k) :: pe);
    pose proof (seq_node k _ (wf_entries_cons _ _ He Hy)) as H;
    cbn in *; rewrite <- ?app_assoc in H; exact H.
  1, 6: destruct S as (y & Hy & ->); exists (EvMappingStart (plain_node k) :: some :: pv);
    pose proof (map_node k _ (wf_pairs_cons _ _ _ (some_node Key) Hv Hy)) as H;
    cbn in *; rewrite <- ?app_assoc in H; exact H.
  1, 5: destruct S as (v & y & Hv' & Hy & ->); exists (EvMappingStart (plain_node k) :: pk);
    pose proof (map_node k _ (wf_pairs_cons _ _ _ Hk Hv' Hy)) as H;
    cbn in *; rewrite <- ?app_assoc in H; exact H.
  - destruct S as (a & v & y & Ha & Hv' & Hy & ->).
    exists (EvSequenceStart (plain_node k) :: EvMappingStart (plain_node Entry) :: some :: pv).
    pose proof (compact_node k _ y (wf_pairs_cons _ _ _ (some_node Key) Hv
                  (wf_pairs_cons _ _ _ Ha Hv' wf_pairs_nil)) Hy) as H.
    cbn in *. rewrite app_nil_r, <- ?app_assoc in H. exact H.
  - destruct S as (v & y & Hv' & Hy & ->).
    exists (EvSequenceStart (plain_node k) :: EvMappingStart (plain_node Entry) :: pk).
    pose proof (compact_node k _ y (wf_pairs_cons _ _ _ Hk Hv' wf_pairs_nil) Hy) as H.
    cbn in *. rewrite app_nil_r, <- ?app_assoc in H. exact H.
  - destruct S as (y & Hy & ->).
    exists (EvSequenceStart (plain_node k) :: EvMappingStart (plain_node Entry) :: some :: pv).
    pose proof (compact_node k _ y (wf_pairs_cons _ _ _ (some_node Key) Hv wf_pairs_nil) Hy) as H.
    cbn in *. rewrite app_nil_r, <- ?app_assoc in H. exact H.
Qed.

Notation opened := (EvDocumentStart default_directives true).
Lemma root_completes x j d :
  x = [] \/ wf_node Root x -> wf_documents d ->
  wf_stream ((EvStreamStart :: opened :: x) ++ EvDocumentEnd j :: d ++ [EvStreamEnd]).
Proof.
  intros X D.
  assert (H : wf_document (opened :: x ++ [EvDocumentEnd j])).
  { destruct X as [->|X]; constructor; exact X. }
  pose proof (wf_stream_intro _ _ H D) as K. cbn in *. rewrite <- ?app_assoc in K. exact K.
Qed.

Lemma rest_completes st : forall v x,
  shape_stack st -> Forall inner st -> lang_rest st v -> completes x ->
  exists pre, wf_stream (pre ++ x ++ v).
Proof.
  induction st as [|s st IH]; intros v x Hs Hi Hv Hx; [destruct Hs|].
  inversion Hi as [|? ? Hs1 Hi']; subst. cbn [lang_rest] in Hv.
  destruct st as [|s2 st].
  - cbn in Hs; subst s. cbn in Hv. destruct Hv as (j & d & Hd & ->).
    destruct (Hx Root) as [pre Hp]. exists (EvStreamStart :: opened :: pre).
    pose proof (root_completes (pre ++ x) j d (or_intror Hp) Hd) as K.
    cbn in *. rewrite <- ?app_assoc in K. exact K.
  - destruct Hs as (P & _ & Hs). cbn [lang_stack] in Hv.
    destruct Hv as (u & v' & Hu & Hv & ->). rewrite app_assoc.
    apply IH; auto. apply (below_completes s); auto.
Qed.

Lemma lang_completes p w : shape p -> rooted p -> lang p w -> exists pre, wf_stream (pre ++ w).
Proof.
  destruct p as [s st d dn]. intros [Hs _] [Hi Hr] L. unfold lang in L. cbn in *.
  assert (D0 : wf_document [opened; EvDocumentEnd true]) by constructor.
  destruct dn.
  - subst w. eexists. rewrite app_nil_r. exact (wf_stream_intro _ _ D0 wf_documents_nil).
  - unfold shape_of in Hs. destruct (poppable s) eqn:P.
    + destruct st as [|a st]; [destruct Hs|]. destruct L as (u & v & Hu & Hv & ->).
      destruct (rooty s) eqn:Ro.
      * specialize (Hr eq_refl). injection Hr as -> ->. cbn in Hv. destruct Hv as (j & x & Hx & ->).
        exists [EvStreamStart; opened]. apply (root_completes u j x); [|exact Hx].
        destruct s; try discriminate; cbn in Hu; auto.
      * apply (rest_completes (a :: st)); auto. apply (seg_completes s); auto.
    + subst st. cbn in L. destruct s; try discriminate; cbn in L.
      * exists []. exact L.
      * subst w. exists [EvStreamStart; opened; EvDocumentEnd true].
        exact (wf_stream_intro _ _ D0 wf_documents_nil).
      * destruct L as (x & Hx & _ & ->). exists [EvStreamStart; opened; EvDocumentEnd true].
        exact (wf_stream_intro _ _ D0 Hx).
      * destruct L as (j & x & Hx & ->). exists [EvStreamStart; opened].
        apply (root_completes [] j x (or_introl eq_refl) Hx).
Qed.

Section Stretches.
  Variable R : Type.
  Variable T : token_source R.
  Variable debug : bool.

  Lemma loop_rooted n p : shape p -> rooted p -> always R (event_loop R T debug n) p (fun _ => rooted).
  Proof.
    revert p; induction n as [|n IH]; intros p Hp Hr r p' r' x; cbn [event_loop];
      destruct (ps_done p) eqn:D; intros E; try (inversion E; subst; assumption).
    destruct (state_transition R T debug p r) as [[p1 r1] y] eqn:M.
    pose proof (keeps_transition R T debug p Hp Hr D _ _ _ _ M) as K.
    destruct (transition_ok R T debug p Hp D _ _ _ _ M) as [S1 _].
    destruct y as [[e|]|e| |]; try (inversion E; subst; assumption).
    eapply IH; eassumption.
  Qed.

  Lemma run_stretch n i p (r : R) : shape p -> rooted p ->
    exists pre rest, wf_stream (pre ++ map ev_data (delivered (skipn i (run_events T debug n p r))) ++ rest).
  Proof.
    revert i p r; induction n as [|n IH]; intros i p r Hp Hr.
    - cbn [run_events]. rewrite skipn_nil. cbn.
      destruct (shape_lang p Hp) as [w Hw]. destruct (lang_completes p w Hp Hr Hw) as [pre H]. eauto.
    - destruct i as [|i].
      + cbn [skipn]. destruct (run_lang R T debug (S n) p r Hp) as (rest & L & _).
        destruct (lang_completes p _ Hp Hr L) as [pre H]. eauto.
      + cbn [run_events]. destruct (next_event T debug p r) as [[p' r'] x] eqn:E. cbn [skipn].
        apply IH.
        * exact (proj1 (proj1 (next_event_ok R T debug p Hp _ _ _ _ E))).
        * exact (loop_rooted 3 p Hp Hr _ _ _ _ E).
  Qed.

  Lemma stretch n i (r : R) :
    exists pre rest, wf_stream (pre ++ map ev_data (delivered (skipn i (run_events T debug n parser0 r))) ++ rest).
  Proof. apply run_stretch; [apply shape0|]. split; [constructor|discriminate]. Qed.
End Stretches.
