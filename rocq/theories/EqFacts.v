(** Equality of events. *)
From Verif Require Import Parser SpecSame BaseFacts SpecMarks SpecTape SpecUtf8 Utf8Facts SpecStream ScanSpec StreamFacts MarkFacts EventCount QuotedFacts SpecContent OwnedEvents SpecOwned.
From Coq Require Import Lia.
Open Scope nat_scope.

(** ** The parts *)
Lemma cow_same a b : cow_eqb a b = true <-> cow_str a = cow_str b.
Proof. apply str_eqb_eq. Qed.
Lemma style_same a b : style_eqb a b = true <-> a = b.
Proof. destruct a, b; cbn; split; congruence. Qed.
Lemma kind_same a b : node_kind_eqb a b = true <-> a = b.
Proof. destruct a, b; cbn; split; congruence. Qed.
Lemma node_same a b : node_eqb a b = true <-> same_node a b.
Proof.
  unfold node_eqb, same_node. rewrite !andb_true_iff, kind_same.
  assert (X : option_eqb cow_eqb (n_anchor a) (n_anchor b) = true <-> option_map cow_str (n_anchor a) = option_map cow_str (n_anchor b)).
  { destruct (n_anchor a), (n_anchor b); cbn; rewrite ?cow_same; split; congruence. }
  assert (Y : option_eqb (fun x y => cow_eqb (fst x) (fst y) && cow_eqb (snd x) (snd y)) (n_tag a) (n_tag b) = true <-> plain_tag (n_tag a) = plain_tag (n_tag b)).
  { destruct (n_tag a) as [[]|], (n_tag b) as [[]|]; cbn; rewrite ?andb_true_iff, ?cow_same; split; try congruence.
    - intros [-> ->]. reflexivity.
    - intros X'. injection X' as -> ->. auto. }
  rewrite X, Y. tauto.
Qed.

(** ** Maps of handles *)
Definition handles (m : tag_map) : list str := map (fun hp => cow_str (fst hp)) m.
Lemma get_none m h : tag_get m h = None <-> ~ In h (handles m).
Proof.
  induction m as [|[k v] m IH]; cbn; [tauto|]. destruct (str_eqb (cow_str k) h) eqn:E.
  - apply str_eqb_eq in E. split; [discriminate|]. intros X. destruct X. auto.
  - rewrite IH. assert (cow_str k <> h) by (intros X; apply str_eqb_eq in X; congruence). tauto.
Qed.
Lemma get_in m k v : NoDup (handles m) -> In (k, v) m -> tag_get m (cow_str k) = Some v.
Proof.
  induction m as [|[k' v'] m IH]; cbn; [tauto|]. intros N [X|X]; inversion N as [|? ? N1 N2]; subst.
  - injection X as -> ->. rewrite str_eqb_refl. reflexivity.
  - destruct (str_eqb (cow_str k') (cow_str k)) eqn:E; [|auto].
    apply str_eqb_eq in E. destruct N1. rewrite E. apply (in_map (fun hp => cow_str (fst hp)) m (k, v)), X.
Qed.
Lemma tags_same a b : NoDup (handles a) -> NoDup (handles b) ->
  tags_eqb a b = true <-> forall h, option_map cow_str (tag_get a h) = option_map cow_str (tag_get b h).
Proof.
  intros A B. unfold tags_eqb. rewrite andb_true_iff, Nat.eqb_eq, forallb_forall. split.
  - intros [L F].
    assert (G : forall k v, In (k, v) a -> exists w, tag_get b (cow_str k) = Some w /\ cow_str v = cow_str w).
    { intros k v I. specialize (F (k, v) I). cbn in F. destruct (tag_get b (cow_str k)) as [w|]; [|discriminate]. exists w. split; [reflexivity|]. apply cow_same, F. }
    assert (I1 : incl (handles a) (handles b)).
    { intros h I. apply in_map_iff in I as ([k v] & <- & I). destruct (G k v I) as (w & X & _). cbn [fst].
      destruct (in_dec (list_eq_dec N.eq_dec) (cow_str k) (handles b)) as [Y|Y]; [exact Y|]. apply get_none in Y. congruence. }
    assert (I2 : incl (handles b) (handles a)).
    { apply NoDup_length_incl; [exact A| |exact I1]. unfold handles. rewrite !map_length. lia. }
    intros h. destruct (in_dec (list_eq_dec N.eq_dec) h (handles a)) as [Y|Y].
    + apply in_map_iff in Y as ([k v] & <- & I). cbn [fst]. destruct (G k v I) as (w & X & E).
      rewrite (get_in a k v A I), X. cbn. congruence.
    + rewrite (proj2 (get_none a h) Y), (proj2 (get_none b h)); [reflexivity|]. intros I. apply Y, I2, I.
  - intros H.
    assert (E : forall h, In h (handles a) <-> In h (handles b)).
    { intros h. specialize (H h). pose proof (get_none a h) as X. pose proof (get_none b h) as Y.
      destruct (tag_get a h), (tag_get b h); try discriminate H; destruct (in_dec (list_eq_dec N.eq_dec) h (handles a)), (in_dec (list_eq_dec N.eq_dec) h (handles b)); intuition congruence. }
    split.
    + pose proof (NoDup_incl_length A (fun h => proj1 (E h))). pose proof (NoDup_incl_length B (fun h => proj2 (E h))). unfold handles in *. rewrite !map_length in *. lia.
    + intros [k v] I. cbn [fst snd]. specialize (H (cow_str k)). rewrite (get_in a k v A I) in H. destruct (tag_get b (cow_str k)); [|discriminate]. apply cow_same. cbn in H. congruence.
Qed.

(** ** Events whose handles are distinct *)
Definition distinct_handles (e : event) : Prop :=
  match ev_data e with EvDocumentStart d _ => NoDup (handles (d_tags d)) | _ => True end.
Lemma event_same a b : distinct_handles a -> distinct_handles b -> event_eqb a b = true <-> same_event a b.
Proof.
  unfold event_eqb, same_event, distinct_handles. rewrite !andb_true_iff, !Nat.eqb_eq, and_assoc. intros A B. do 2 apply and_iff_compat_l.
  destruct (ev_data a), (ev_data b); cbn [data_eqb] in *; try (split; [discriminate|inversion 1]; fail); try (split; constructor; fail).
  - rewrite andb_true_iff. unfold directives_eqb. rewrite !andb_true_iff, !N.eqb_eq, (tags_same _ _ A B), eqb_true_iff. split.
    + intros [[[V1 V2] T] ->]. constructor. split; [|exact T]. destruct (d_version d), (d_version d0); cbn in *; congruence.
    + inversion 1 as [| |? ? ? [V T]| | | | | | |]; subst. rewrite V. auto.
  - rewrite eqb_true_iff. split; [intros ->; constructor|inversion 1; reflexivity].
  - rewrite cow_same. split; [constructor; assumption|inversion 1; assumption].
  - rewrite andb_true_iff, node_same. destruct content as [c k|x], content0 as [c' k'|x']; cbn [scalar_eqb]; try (split; [intros [_ X]; discriminate|inversion 1]).
    rewrite andb_true_iff, cow_same, style_same. split; [intros (N & C & ->); constructor; assumption|inversion 1; auto].
  - rewrite node_same. split; [constructor; assumption|inversion 1; assumption].
  - rewrite node_same. split; [constructor; assumption|inversion 1; assumption].
Qed.

(** ** The parser delivers such events *)
Section Delivered.
  Variable R : Type.
  Variable T : token_source R.
  Definition gives {A} (m : P R A) (Q : A -> Prop) : Prop := forall p r p' r' a, m p r = (p', r', Ok a) -> Q a.
  Definition fine (x : option event) : Prop := match x with Some e => distinct_handles e | None => True end.
  Lemma gives_ret {A} (a : A) (Q : A -> Prop) : Q a -> gives (pret R a) Q.
  Proof. intros H p r p' r' b E. injection E as _ _ <-. exact H. Qed.
  Lemma gives_fail {A} (y : pres A) (Q : A -> Prop) : (forall a, y <> Ok a) -> gives (pfail R y) Q.
  Proof. intros H p r p' r' a E. unfold pfail in E. injection E as _ _ ->. destruct (H a eq_refl). Qed.
  Lemma gives_bind {A B} (m : P R A) (k : A -> P R B) (Q1 : A -> Prop) Q : gives m Q1 -> (forall a, Q1 a -> gives (k a) Q) -> gives (pbind R m k) Q.
  Proof.
    intros M K p r p' r' b E. unfold pbind in E. specialize (M p r). destruct (m p r) as [[p1 r1] [a|e| |]]; try discriminate.
    exact (K a (M _ _ a eq_refl) _ _ _ _ _ E).
  Qed.
  Lemma gives_then {A B} (m : P R A) (k : A -> P R B) Q : (forall a, gives (k a) Q) -> gives (pbind R m k) Q.
  Proof. intros K. apply (gives_bind m k (fun _ => True)); [intros p r p' r' a _; exact Logic.I|auto]. Qed.
  Lemma gives_checked s e n c mk : (forall n, fine (Some (mkEvent s e (mk n)))) -> gives (checked R s e n c mk) fine.
  Proof. intros H p r p' r' a E. unfold checked in E. destruct (validate_tag _ n c); try discriminate. injection E as _ _ <-. apply H. Qed.
  Lemma gives_directives f : forall m seen d, NoDup (handles (d_tags d)) -> gives (scan_directives R T f m seen d) (fun x => NoDup (handles (d_tags (snd x)))).
  Proof.
    induction f as [|f IH]; intros m seen d N; cbn [scan_directives]; [apply gives_fail; discriminate|].
    apply gives_then. intros [m0 t]. destruct t; try (apply gives_ret; exact N).
    - destruct seen; [apply gives_fail; discriminate|]. apply gives_then. intros [m1 k]. destruct k; try (apply gives_fail; discriminate). apply IH, N.
    - apply gives_then. intros [m1 k]. destruct k; try (apply gives_fail; discriminate). destruct (tag_get _ _) eqn:G; [apply gives_fail; discriminate|].
      apply IH. cbn [d_tags]. unfold tag_insert, handles. rewrite map_app. apply get_none in G.
      apply NoDup_Add with (a := cow_str handle) (l := handles (d_tags d)); [|split; assumption].
      rewrite <- (app_nil_r (handles (d_tags d))) at 1. apply Add_app.
  Qed.
  Lemma or_insert_distinct m h p : NoDup (handles m) -> NoDup (handles (tag_or_insert m h p)).
  Proof.
    intros N. unfold tag_or_insert. destruct (tag_get m (cow_str h)) eqn:G; [exact N|]. apply get_none in G. unfold tag_insert, handles. rewrite map_app.
    apply NoDup_Add with (a := cow_str h) (l := handles m); [|split; assumption]. rewrite <- (app_nil_r (handles m)) at 1. apply Add_app.
  Qed.
  Lemma gives_document_directives : gives (scan_document_directives R T) (fun x => NoDup (handles (d_tags (snd x)))).
  Proof.
    unfold scan_document_directives. apply gives_then. intros [s t]. apply gives_then. intros f.
    eapply gives_bind; [apply gives_directives|].
    - cbn. repeat constructor; cbn; intuition discriminate.
    - intros [e d] N. apply gives_ret. cbn [snd d_tags] in *. clear - N. generalize default_tags. intros l. revert N. generalize (d_tags d).
      induction l as [|[h p] l IH]; intros m N; [exact N|]. cbn [fold_left fst snd]. apply IH, or_insert_distinct, N.
  Qed.
  Ltac walk := repeat first
    [ apply gives_ret; exact Logic.I | apply gives_fail; discriminate | apply gives_checked; intros; exact Logic.I
    | apply gives_then; intros ? | progress cbv beta zeta
    | match goal with |- gives (match ?x with _ => _ end) _ => destruct x end
    | match goal with |- gives (let '(_, _) := ?x in _) _ => destruct x end ].
  Lemma gives_node block k : gives (parse_node R T block k) fine.
  Proof. unfold parse_node, node_content, node_variant, node_empty, deliver. walk. Qed.
  Ltac stroll := repeat first
    [ simple apply gives_node | simple apply gives_ret; exact Logic.I | simple apply gives_fail; discriminate
    | simple apply gives_then; intros ? | progress cbv beta zeta
    | match goal with |- gives (match ?x with _ => _ end) _ => destruct x end
    | match goal with |- gives (let '(_, _) := ?x in _) _ => destruct x end ].
  Lemma gives_transition debug : gives (state_transition R T debug) fine.
  Proof.
    apply gives_then. intros s.
    destruct s; try apply gives_node;
    unfold stream_start, explicit_document_content, document_end, block_sequence_entry, block_mapping_key, block_mapping_value,
      flow_sequence_entry, flow_sequence_entry_mapping_key, flow_sequence_entry_mapping_value, flow_sequence_entry_mapping_end,
      flow_mapping_key, flow_mapping_value, stream_end, fetch_end, empty_scalar, deliver;
    try (stroll; fail).
    { apply gives_then. intros [m t]. apply (gives_bind _ _ fine); [stroll|]. intros ev F. apply gives_then. intros u. apply gives_ret, F. }
    unfold document_start. apply gives_then. intros u. cbv beta. clear u. apply gives_then. intros [m t]. cbv beta iota zeta.
    assert (X : forall (A : Type) (m1 : nat * nat * directives -> P R A) Q, (forall x, NoDup (handles (d_tags (snd x))) -> gives (m1 x) Q) -> gives (pbind R (scan_document_directives R T) m1) Q).
    { intros A m1 Q H. exact (gives_bind _ _ _ _ gives_document_directives H). }
    unfold deliver.
    repeat first [ apply X; intros [[? ?] ?] ?; cbn [snd] in * | apply gives_ret; first [assumption|exact Logic.I] | apply gives_fail; discriminate
      | apply gives_then; intros ? | progress cbv beta zeta | match goal with |- gives (match ?x with _ => _ end) _ => destruct x end ].
  Qed.
End Delivered.
Section Runs.
  Variable R : Type.
  Variable T : token_source R.
  Lemma loop_distinct debug f : gives R (event_loop R T debug f) fine.
  Proof.
    induction f as [|f IH]; intros p r p' r' a E; cbn [event_loop] in E; destruct (ps_done p); try discriminate; try (injection E as _ _ <-; exact Logic.I).
    pose proof (gives_transition R T debug p r) as G. destruct (state_transition R T debug p r) as [[p1 r1] [[e|]|x| |]]; try discriminate.
    - injection E as _ _ <-. exact (G _ _ _ eq_refl).
    - exact (IH _ _ _ _ _ E).
  Qed.
  Lemma run_distinct debug n : forall p r e, In (Ok (Some e)) (run_events T debug n p r) -> distinct_handles e.
  Proof.
    induction n as [|n IH]; intros p r e I; cbn [run_events] in I; [destruct I|].
    pose proof (loop_distinct debug 3 p r) as G. unfold next_event in I. destruct (event_loop R T debug 3 p r) as [[p1 r1] x].
    destruct I as [->|I]; [exact (G _ _ _ eq_refl)|exact (IH _ _ _ I)].
  Qed.
End Runs.
Lemma first_in {A} (l : list (pres (option A))) e : In e (first_events l) -> In (Ok (Some e)) l.
Proof. induction l as [|[[x|]|x| |] l IH]; cbn; try tauto. intros [->|I]; [left; reflexivity|right; auto]. Qed.

Theorem runs_equal R R' (T : token_source R) (T' : token_source R') debug debug' n n' p p' r r' a b :
  In (Ok (Some a)) (run_events T debug n p r) -> In (Ok (Some b)) (run_events T' debug' n' p' r') ->
  event_eqb a b = true <-> same_event a b.
Proof. intros A B. apply event_same; eapply run_distinct; eassumption. Qed.

(** ** Laws *)
Lemma same_node_refl n : same_node n n.
Proof. repeat split. Qed.
Lemma same_reflexive e : same_event e e <-> ~ deferred_event e.
Proof.
  split.
  - intros (_ & _ & S) (n & d & E). rewrite E in S. inversion S.
  - intros D. split; [reflexivity|]. split; [reflexivity|]. unfold deferred_event in D.
    destruct (ev_data e) as [| | | | |n [c k|d]| | | |]; try (constructor; repeat split; fail).
    destruct D. eauto.
Qed.
Lemma same_symmetric a b : same_event a b -> same_event b a.
Proof.
  unfold same_event, same_node, same_directives. intros (E1 & E2 & S). split; [congruence|]. split; [congruence|].
  destruct S; constructor; unfold same_node, same_directives in *; intuition congruence.
Qed.
Lemma same_transitive a b c : same_event a b -> same_event b c -> same_event a c.
Proof.
  unfold same_event. intros (E1 & E2 & S) (F1 & F2 & S'). split; [congruence|]. split; [congruence|].
  destruct S; inversion S'; subst; constructor; unfold same_node, same_directives in *; intuition congruence.
Qed.

(** ** Eager reading defers nothing *)
Lemma eager_token t o s l x e d : valid t -> lazy_mode o = false -> consumes (open t o) s = (l, x) -> In e l -> e_wrap e <> Lazy d.
Proof.
  intros V NL C IN EW. destruct (stream_from t o V s l x e C IN) as (n & st & cx & k & st' & B & CT & _).
  { unfold e_marker. rewrite EW. reflexivity. }
  rewrite EW in CT. inversion CT; subst; unfold scan_flow_scalar, scan_plain_scalar, scan_block_scalar in *; change (lazy_mode (no_extend o)) with (lazy_mode o) in *; rewrite NL in *;
  match goal with H : bind _ _ = Ok _ |- _ => apply bind_inv in H as ([[tk k'] d'] & D & X); discriminate X end.
Qed.
Lemma eager_events t debug n e : well_formed t ->
  In e (first_events (run_events peek_source debug n parser0 (snd (events_new (Borrow t) false)))) -> ~ deferred_event e.
Proof.
  intros W I (nd & d & E). destruct (marks_fit t false debug W) as (s & l & x & C & H). destruct (H n e I) as (y & IY & _ & F).
  rewrite E in F. cbn in F. exact (eager_token t (as_scanner false) s l x y d (proj2 (valid_iff t) W) eq_refl C IY F).
Qed.
Lemma poured_equal t src debug n : well_formed t -> steady src -> bytes_of src = t -> all_ascii t \/ short t ->
  Forall2 (fun a b => event_eqb a b = true)
    (first_events (run_events peek_source debug n parser0 (snd (events_new (Borrow t) false))))
    (first_events (run_events peek_source debug n parser0 (snd (events_new (Own (owned_new src)) false)))).
Proof.
  intros W S B A. rewrite <- (first_until (run_events peek_source debug n parser0 (snd (events_new (Own _) false)))).
  rewrite (proj1 (poured_events t src debug W S B A n)), first_until.
  assert (F : Forall (fun e => event_eqb e e = true) (first_events (run_events peek_source debug n parser0 (snd (events_new (Borrow t) false))))).
  { rewrite Forall_forall. intros e I. pose proof (first_in _ _ I) as J. apply (runs_equal _ _ _ _ _ _ _ _ _ _ _ _ _ _ J J), same_reflexive.
    eapply eager_events; eassumption. }
  induction F; constructor; assumption.
Qed.
Lemma eager_equal t debug n e : well_formed t ->
  In e (first_events (run_events peek_source debug n parser0 (snd (events_new (Borrow t) false)))) -> event_eqb e e = true.
Proof.
  intros W I. pose proof (first_in _ _ I) as J. apply (runs_equal _ _ _ _ _ _ _ _ _ _ _ _ _ _ J J), same_reflexive. eapply eager_events; eassumption.
Qed.
Lemma deferred_unequal : exists (t : str) (e : event), well_formed t /\
  In e (first_events (run_events peek_source false 3 parser0 (snd (events_new (Borrow t) true)))) /\ event_eqb e e = false.
Proof.
  exists (bytes "a"). eexists. split; [apply ascii_well_formed; repeat constructor|]. split; [vm_compute; right; right; left; reflexivity|]. vm_compute. reflexivity.
Qed.
