(** Several iterators over one reader. *)
From Verif Require Import SpecShared.

From Coq Require Import Lia.
Open Scope nat_scope.

(** ** What the methods of the parser leave alone *)
Section Kept.
  Variable R : Type.
  Variable T : token_source R.
  Variable I : R -> Prop.
  Hypothesis look : forall r, I r -> I (fst (ts_look T r)).
  Hypothesis take : forall r, I r -> I (fst (ts_pop T r)).
  Definition kept {A} (m : P R A) : Prop := forall p r, I r -> I (snd (fst (m p r))).
  Lemma kept_ret {A} (a : A) : kept (pret R a).
  Proof. intros p r H. exact H. Qed.
  Lemma kept_fail {A} (y : pres A) : kept (pfail R y).
  Proof. intros p r H. exact H. Qed.
  Lemma kept_upd f : kept (pupd R f).
  Proof. intros p r H. exact H. Qed.
  Lemma kept_bind {A B} (m : P R A) (k : A -> P R B) : kept m -> (forall a, kept (k a)) -> kept (pbind R m k).
  Proof.
    intros M K p r H. unfold pbind. specialize (M p r H). destruct (m p r) as [[p1 r1] [a|e| |]]; cbn [fst snd] in *; auto. apply K, M.
  Qed.
  Lemma kept_peek_opt : kept (peek_opt R T).
  Proof. intros p r H. unfold peek_opt. specialize (look r H). destruct (ts_look T r). exact look. Qed.
  Lemma kept_take : kept (fun p r => let (r', x) := ts_pop T r in (p, r', map_err parse_error_of_reader x)).
  Proof. intros p r H. specialize (take r H). destruct (ts_pop T r). exact take. Qed.
  Lemma kept_get {A} (f : parser -> R -> A) : kept (fun p r => (p, r, Ok (f p r))).
  Proof. intros p r H. exact H. Qed.
  Lemma kept_checked s e n c mk : kept (checked R s e n c mk).
  Proof. intros p r H. unfold checked. destruct (validate_tag _ n c); exact H. Qed.
  Ltac still := repeat first
    [ simple apply kept_ret | simple apply kept_fail | simple apply kept_upd | simple apply kept_peek_opt | simple apply kept_take | simple apply kept_checked
    | assumption | simple apply kept_bind; [|intros ?] | progress cbv beta zeta
    | match goal with |- kept (match ?x with _ => _ end) => destruct x end ].
  Lemma kept_peek : kept (peek R T).
  Proof. unfold peek. still. Qed.
  Lemma kept_pop : kept (pop R T).
  Proof. unfold pop. still. Qed.
  Lemma kept_consume : kept (consume R T).
  Proof. pose proof kept_pop. unfold consume. still. Qed.
  Lemma kept_consume_scalar : kept (consume_scalar R T).
  Proof. pose proof kept_pop. unfold consume_scalar. still. Qed.
  Lemma kept_budget : kept (budget R T).
  Proof. intros p r H. exact H. Qed.
  Lemma kept_skip f : kept (skip_document_ends R T f).
  Proof. pose proof kept_pop. pose proof kept_peek. induction f; cbn [skip_document_ends]; still. Qed.
  Lemma kept_directives f : forall m seen d, kept (scan_directives R T f m seen d).
  Proof. pose proof kept_consume. pose proof kept_peek. induction f as [|f IH]; intros; cbn [scan_directives]; repeat first [apply IH | progress still]. Qed.
  Lemma kept_document_directives : kept (scan_document_directives R T).
  Proof. pose proof kept_peek. pose proof kept_budget. unfold scan_document_directives. repeat first [apply kept_directives | progress still]. Qed.
  Lemma kept_anchor : kept (Parser.fetch_anchor R T).
  Proof. pose proof kept_consume. unfold Parser.fetch_anchor. still. Qed.
  Lemma kept_tag : kept (Parser.fetch_tag R T).
  Proof. pose proof kept_consume. unfold Parser.fetch_tag. still. Qed.
  Lemma kept_properties s t : kept (properties R T s t).
  Proof. pose proof kept_anchor. pose proof kept_tag. unfold properties. still. Qed.
  Lemma kept_node b k : kept (parse_node R T b k).
  Proof.
    pose proof kept_peek. pose proof kept_consume. pose proof kept_consume_scalar. unfold parse_node, node_content, node_variant, node_empty, deliver.
    repeat first [apply kept_properties | progress still].
  Qed.
  Lemma kept_assert debug c : kept (debug_assert R debug c).
  Proof. unfold debug_assert. still. Qed.
  Lemma kept_transition debug : kept (state_transition R T debug).
  Proof.
    pose proof kept_peek. pose proof kept_consume. pose proof kept_pop. pose proof kept_budget. pose proof kept_document_directives.
    apply kept_bind; [apply (kept_get (fun p _ => ps_top p))|]. intros s.
    destruct s; try apply kept_node;
    unfold stream_start, explicit_document_content, document_end, document_start, block_sequence_entry, block_mapping_key, block_mapping_value,
      flow_sequence_entry, flow_sequence_entry_mapping_key, flow_sequence_entry_mapping_value, flow_sequence_entry_mapping_end,
      flow_mapping_key, flow_mapping_value, stream_end, fetch_end, empty_scalar, deliver, activate;
    repeat first [apply kept_node | apply kept_skip | apply kept_assert | apply (kept_get (fun p _ => ps_done p)) | progress still].
  Qed.
  Lemma kept_loop debug f : kept (event_loop R T debug f).
  Proof.
    induction f as [|f IH]; intros p r H; cbn [event_loop]; destruct (ps_done p); try exact H.
    pose proof (kept_transition debug p r H) as K. destruct (state_transition R T debug p r) as [[p1 r1] [[e|]|x| |]]; cbn [fst snd] in *; auto.
  Qed.
End Kept.

(** ** Borrowed text *)
Definition over (t : str) (p : peek_reader) : Prop := r_in (pk_reader p) = Borrow t.
Lemma take_over t p : over t p -> over t (fst (take_next p)).
Proof.
  unfold over, take_next. intros O. destruct (pk_peek p); [exact O|]. destruct (Nat.eqb _ 0).
  - unfold reader_scan. rewrite O. cbn [drive]. destruct (scan_tokens _ _ _ _) as [[sc q] [u|e| |]]; cbn [map_err fst pk_reader r_in r_q]; try reflexivity.
    destruct (q_pop entry_cmp q). reflexivity.
  - destruct (q_pop entry_cmp _). exact O.
Qed.
Lemma look_over t p : over t p -> over t (fst (pk_look p)).
Proof.
  intros O. unfold pk_look. destruct (pk_peek p); [exact O|]. destruct (reader_exhausted _); [exact O|].
  pose proof (take_over t p O) as K. destruct (take_next p) as [p1 [u|e| |]]; exact K.
Qed.
Lemma pop_over t p : over t p -> over t (fst (pk_pop p)).
Proof.
  intros O. unfold pk_pop. destruct (pk_peek p); [exact O|]. destruct (reader_exhausted _); [exact O|].
  pose proof (take_over t p O) as K. destruct (take_next p) as [p1 [u|e| |]]; exact K.
Qed.
Lemma next_over t debug p r : over t r -> over t (snd (fst (next_event peek_source debug p r))).
Proof. apply (kept_loop peek_reader peek_source (over t) (look_over t) (pop_over t)). Qed.

Lemma with_over t r : over t r -> with_input (Borrow t) r = r.
Proof. unfold over, with_input. destruct r as [pk [sc q o ex i]]. cbn. intros ->. reflexivity. Qed.
Lemma nth_replace {A} (l : list A) k a : forall j, nth_error (replace l k a) j = if Nat.eqb j k then match nth_error l k with Some _ => Some a | None => None end else nth_error l j.
Proof. revert k. induction l as [|x l IH]; intros [|k] [|j]; cbn; try reflexivity; [destruct (Nat.eqb j k); reflexivity|apply IH]. Qed.

Lemma interleaved t debug schedule : forall its k it, (forall j x, nth_error its j = Some x -> over t (it_reader x)) -> nth_error its k = Some it ->
  answers_of k (interleave debug (Borrow t) its schedule) = run_events peek_source debug (calls_of k schedule) (it_parser it) (it_reader it).
Proof.
  induction schedule as [|c schedule IH]; intros its k it OV N; [reflexivity|]. cbn [interleave]. unfold calls_of. cbn [filter].
  destruct (nth_error its c) as [ic|] eqn:C.
  - unfold iterator_next. rewrite (with_over t _ (OV _ _ C)). pose proof (next_over t debug (it_parser ic) (it_reader ic) (OV _ _ C)) as K.
    destruct (next_event peek_source debug (it_parser ic) (it_reader ic)) as [[p1 r1] x] eqn:E. cbn [fst snd] in K. rewrite K.
    assert (OV' : forall j y, nth_error (replace its c (mkIterator p1 r1)) j = Some y -> over t (it_reader y)).
    { intros j y. rewrite nth_replace, C. destruct (Nat.eqb j c); [intros X; injection X as <-; exact K|apply OV]. }
    unfold answers_of. cbn [filter fst]. destruct (Nat.eqb c k) eqn:CK.
    + apply Nat.eqb_eq in CK. subst c. assert (ic = it) as -> by congruence. cbn [map snd List.length run_events]. rewrite E. f_equal.
      refine (IH _ k (mkIterator p1 r1) OV' _). rewrite nth_replace, Nat.eqb_refl, C. reflexivity.
    + refine (IH _ k it OV' _). rewrite nth_replace. replace (Nat.eqb k c) with false by (symmetry; apply Nat.eqb_neq; apply Nat.eqb_neq in CK; congruence). exact N.
  - destruct (Nat.eqb c k) eqn:CK; [apply Nat.eqb_eq in CK; congruence|]. apply (IH its k it OV N).
Qed.
Theorem borrowed_shared (t : str) (debug : bool) (modes : list bool) (schedule : list nat) (k : nat) (lazy : bool) :
  nth_error modes k = Some lazy ->
  answers_of k (interleave debug (Borrow t) (map (iterator_new (Borrow t)) modes) schedule)
  = run_events peek_source debug (calls_of k schedule) parser0 (snd (events_new (Borrow t) lazy)).
Proof.
  intros N. apply (interleaved t debug schedule _ k (iterator_new (Borrow t) lazy)).
  - intros j x X. rewrite nth_error_map in X. destruct (nth_error modes j); [|discriminate]. injection X as <-. reflexivity.
  - rewrite nth_error_map, N. reflexivity.
Qed.

(** ** Byte sources *)
Definition items : Reader.source := [Data (bytes "- a" ++ [10%N] ++ bytes "- b" ++ [10%N] ++ bytes "- c")].
Lemma alternating : exists (src : Reader.source) (schedule : list nat),
  let i := Own (owned_new src) in
  let xs := interleave false i [iterator_new i false; iterator_new i false] schedule in
  let ys := run_events peek_source false (calls_of 1 schedule) parser0 (snd (events_new i false)) in
  (forall e, ~ In (Err e) (answers_of 1 xs) /\ ~ In (Err e) ys) /\
  nth_error (answers_of 1 xs) 8 = Some (Ok None) /\ nth_error ys 9 = Some (Ok None) /\
  exists e, nth_error ys 8 = Some (Ok (Some e)).
Proof.
  exists items, (List.concat (repeat [0; 1] 10)). cbv zeta. split; [intros e; split; vm_compute; intuition discriminate|].
  split; [vm_compute; reflexivity|]. split; [vm_compute; reflexivity|]. eexists. vm_compute. reflexivity.
Qed.
