(** The parser takes from its source only the kinds of tokens it has seen there. *)
From Verif Require Export EventFuel.

From Coq Require Import Lia.
Open Scope nat_scope.

(** [calm bad m p l Q]: with the tokens [l] to come, [m] does not panic, unless [bad],
    and if it gives an answer then [Q] holds of it. *)
Definition calm {A} (bad : Prop) (m : P tape A) (p : parser) (l : list entry) (Q : parser -> list entry -> A -> Prop) : Prop :=
  forall x, x <> Panic ->
    match m p (l, x) with
    | (p', t', Ok a) => snd t' = x /\ Q p' (fst t') a
    | (_, _, Panic) => bad
    | _ => True
    end.

Section Calm.
  Variable bad : Prop.
  Notation calm := (calm bad).

  Lemma calm_ret {A} (a : A) p l (Q : parser -> list entry -> A -> Prop) : Q p l a -> calm (pret tape a) p l Q.
  Proof. intros H x X. split; [reflexivity|exact H]. Qed.
  Lemma calm_fail {A} (y : pres A) p l Q : (forall a, y <> Ok a) -> y <> Panic -> calm (pfail tape y) p l Q.
  Proof. intros H H' x X. cbn. destruct y; [destruct (H _ eq_refl)|exact Logic.I|congruence|exact Logic.I]. Qed.
  Lemma calm_bad {A} (y : pres A) p l Q : bad -> (forall a, y <> Ok a) -> calm (pfail tape y) p l Q.
  Proof. intros B H x X. cbn. destruct y; [destruct (H _ eq_refl)|exact Logic.I|exact B|exact Logic.I]. Qed.
  Lemma calm_upd f p l (Q : parser -> list entry -> unit -> Prop) : Q (f p) l tt -> calm (pupd tape f) p l Q.
  Proof. intros H x X. split; [reflexivity|exact H]. Qed.
  Lemma calm_get {A} (f : parser -> A) p l (Q : parser -> list entry -> A -> Prop) : Q p l (f p) -> calm (fun p r => (p, r, Ok (f p))) p l Q.
  Proof. intros H x X. split; [reflexivity|exact H]. Qed.
  Lemma calm_bind {A B} (m : P tape A) (k : A -> P tape B) p l (Q : parser -> list entry -> B -> Prop) :
    calm m p l (fun p' l' a => calm (k a) p' l' Q) -> calm (pbind tape m k) p l Q.
  Proof.
    intros H x X. specialize (H x X). unfold pbind. destruct (m p (l, x)) as [[p' [l' x']] [a|e| |]]; [|exact Logic.I|exact H|exact Logic.I].
    cbn [fst snd] in H. destruct H as [-> H]. exact (H x X).
  Qed.
  Lemma calm_weaken {A} (m : P tape A) p l (Q Q' : parser -> list entry -> A -> Prop) :
    calm m p l Q -> (forall p' l' a, Q p' l' a -> Q' p' l' a) -> calm m p l Q'.
  Proof. intros H I x X. specialize (H x X). destruct (m p (l, x)) as [[p' t'] [a|e| |]]; auto. destruct H; auto. Qed.
  Lemma calm_peek_opt p l (Q : parser -> list entry -> option entry -> Prop) : Q p l (hd_error l) -> calm (peek_opt tape tape_source) p l Q.
  Proof.
    intros H x X. unfold peek_opt. cbn [ts_look tape_source]. destruct l as [|e l]; cbn; [|auto].
    destruct x as [u|e| |]; cbn; auto; congruence.
  Qed.
  Lemma calm_peek p l (Q : parser -> list entry -> nat * marker -> Prop) :
    (forall e l', l = e :: l' -> Q p l (e_read e, e_marker e)) -> calm (peek tape tape_source) p l Q.
  Proof.
    intros H. unfold peek. apply calm_bind, calm_peek_opt. destruct l as [|e l]; cbn; [apply calm_fail; discriminate|].
    apply calm_ret. apply (H e l). reflexivity.
  Qed.
  Lemma calm_pop p l (Q : parser -> list entry -> entry -> Prop) :
    (forall e l', l = e :: l' -> Q p l' e) -> calm (pop tape tape_source) p l Q.
  Proof.
    intros H x X. unfold pop, pbind. cbn [ts_pop tape_source]. unfold tape_next. destruct l as [|e l]; cbn.
    - destruct x as [u|e| |]; cbn; auto; congruence.
    - split; [reflexivity|]. apply (H e l eq_refl).
  Qed.
  Lemma calm_consume p l (Q : parser -> list entry -> nat * token -> Prop) :
    (forall e l', l = e :: l' -> e_marker e <> MScalar /\ forall t, e_wrap e = Tok t -> e_marker e = token_marker t -> Q p l' (e_read e, t)) ->
    calm (consume tape tape_source) p l Q.
  Proof.
    intros H. unfold consume. apply calm_bind, calm_pop. intros e l' E. destruct (H e l' E) as [N K].
    destruct (e_wrap e) as [t|d] eqn:W.
    - apply calm_ret. apply K; [exact eq_refl|]. unfold e_marker. rewrite W. reflexivity.
    - destruct N. unfold e_marker. rewrite W. reflexivity.
  Qed.
  Lemma calm_consume_scalar p l (Q : parser -> list entry -> nat * scalar_like -> Prop) :
    (forall e l', l = e :: l' -> e_marker e = MScalar /\ forall s, Q p l' (e_read e, s)) ->
    calm (consume_scalar tape tape_source) p l Q.
  Proof.
    intros H. unfold consume_scalar. apply calm_bind, calm_pop. intros e l' E. destruct (H e l' E) as [N K].
    unfold e_marker in N. destruct (e_wrap e) as [t|d] eqn:W; [|apply calm_ret, K].
    destruct t; try discriminate. apply calm_ret, K.
  Qed.
  Lemma calm_assert debug b p l (Q : parser -> list entry -> unit -> Prop) :
    (b = true \/ debug = false \/ bad) -> Q p l tt -> calm (debug_assert tape debug b) p l Q.
  Proof.
    intros D H. unfold debug_assert. destruct b; [rewrite andb_false_r; apply calm_ret, H|].
    destruct debug; cbn; [|apply calm_ret, H]. destruct D as [D|[D|D]]; try discriminate. apply calm_bad; [exact D|discriminate].
  Qed.
  Lemma calm_checked s e k b mk p l (Q : parser -> list entry -> option event -> Prop) : (forall v, Q p l (Some v)) -> calm (checked tape s e k b mk) p l Q.
  Proof.
    intros H x X. unfold checked, validate_tag.
    destruct (n_tag k) as [[h w]|]; [destruct (b && _); [|destruct (tag_get _ _)]|]; cbn; auto.
  Qed.
  Lemma calm_budget p l (Q : parser -> list entry -> nat -> Prop) : (forall n, Q p l n) -> calm (budget tape tape_source) p l Q.
  Proof. intros H x X. split; [reflexivity|apply H]. Qed.

  Lemma calm_skip f : forall p l (Q : parser -> list entry -> unit -> Prop), (forall l', Q p l' tt) -> calm (skip_document_ends tape tape_source f) p l Q.
  Proof.
    induction f as [|f IH]; intros p l Q H; cbn [skip_document_ends]; [apply calm_fail; discriminate|].
    apply calm_bind, calm_peek. intros e l' _. destruct (e_marker e); try (apply calm_ret, H).
    apply calm_bind, calm_pop. intros e' l'' _. apply IH, H.
  Qed.
  Lemma calm_directives f : forall p l e seen d (Q : parser -> list entry -> nat * directives -> Prop), (forall l' a, Q p l' a) ->
    calm (scan_directives tape tape_source f e seen d) p l Q.
  Proof.
    induction f as [|f IH]; intros p l e seen d Q H; cbn [scan_directives]; [apply calm_fail; discriminate|].
    apply calm_bind, calm_peek. intros x l' ->. destruct (e_marker x) eqn:M; try (apply calm_ret, H).
    - destruct seen; [apply calm_fail; discriminate|]. apply calm_bind, calm_consume. intros y l'' E. injection E as -> ->. rewrite M.
      split; [discriminate|]. intros t _ T. destruct t; try discriminate. apply IH, H.
    - apply calm_bind, calm_consume. intros y l'' E. injection E as -> ->. rewrite M.
      split; [discriminate|]. intros t _ T. destruct t; try discriminate. destruct (tag_get _ _); [apply calm_fail; discriminate|]. apply IH, H.
  Qed.
  Lemma calm_document_directives p l (Q : parser -> list entry -> nat * nat * directives -> Prop) : (forall l' a, Q p l' a) ->
    calm (scan_document_directives tape tape_source) p l Q.
  Proof.
    intros H. unfold scan_document_directives. apply calm_bind, calm_peek. intros e l' _.
    apply calm_bind, calm_budget. intros f. apply calm_bind, calm_directives. intros l'' [a d]. apply calm_ret, H.
  Qed.
  Lemma calm_anchor p l (Q : parser -> list entry -> option (nat * cow) -> Prop) : (forall l' a, Q p l' a) ->
    calm (fetch_anchor tape tape_source) p l Q.
  Proof.
    intros H. unfold fetch_anchor. apply calm_bind, calm_peek_opt. destruct l as [|x l]; cbn [hd_error option_map]; [apply calm_ret, H|].
    destruct (e_marker x) eqn:M; try (apply calm_ret, H).
    apply calm_bind, calm_consume. intros y l'' E. injection E as -> ->. rewrite M.
    split; [discriminate|]. intros t _ T. destruct t; try discriminate. apply calm_ret, H.
  Qed.
  Lemma calm_tag p l (Q : parser -> list entry -> option (nat * (cow * cow)) -> Prop) : (forall l' a, Q p l' a) ->
    calm (fetch_tag tape tape_source) p l Q.
  Proof.
    intros H. unfold fetch_tag. apply calm_bind, calm_peek_opt. destruct l as [|x l]; cbn [hd_error option_map]; [apply calm_ret, H|].
    destruct (e_marker x) eqn:M; try (apply calm_ret, H).
    apply calm_bind, calm_consume. intros y l'' E. injection E as -> ->. rewrite M.
    split; [discriminate|]. intros t _ T. destruct t; try discriminate. apply calm_ret, H.
  Qed.
  Lemma calm_properties s k p l (Q : parser -> list entry -> nat * option cow * option (cow * cow) -> Prop) : (forall l' a, Q p l' a) ->
    calm (properties tape tape_source s k) p l Q.
  Proof.
    intros H. unfold properties. destruct k; try (apply calm_ret, H).
    - apply calm_bind, calm_anchor. intros l' a. apply calm_bind, calm_tag. intros l'' b. apply calm_ret, H.
    - apply calm_bind, calm_tag. intros l' a. apply calm_bind, calm_anchor. intros l'' b. apply calm_ret, H.
  Qed.
End Calm.

(** What is known of the next token in a state. *)
Definition expects (s : state) : option marker :=
  match s with
  | StStreamEnd => Some MStreamEnd
  | StBlockSequenceEntry true => Some MBlockSequenceStart
  | StBlockMappingKey true => Some MBlockMappingStart
  | StFlowSequenceEntry true => Some MFlowSequenceStart
  | StFlowMappingKey true => Some MFlowMappingStart
  | _ => None
  end.
Definition ahead (p : parser) (l : list entry) : Prop :=
  ps_done p = true \/
  match expects (ps_top p) with
  | Some m => exists e l', l = e :: l' /\ e_marker e = m
  | None => True
  end.
Definition stacked (p : parser) : Prop := Forall (fun s => expects s = None) (ps_stack p).
Definition upright (p : parser) : Prop := ps_stack p <> [] /\ stacked p.

Definition after (p : parser) (l : list entry) (x : option event) : Prop := stacked p /\ ahead p l.

Lemma after_pop p l x : upright p -> after (st_pop p) l x.
Proof.
  destruct p as [s [|a st] d b]; intros [N F]; [destruct (N eq_refl)|]. unfold stacked in F. cbn in F. inversion F; subst.
  split; [assumption|]. right. cbn. rewrite H1. exact Logic.I.
Qed.
Lemma after_top s p l x : expects s = None -> stacked p -> after (st_top s p) l x.
Proof. intros E F. split; [exact F|]. right. cbn. rewrite E. exact Logic.I. Qed.
Lemma after_first s m p e l x : expects s = Some m -> e_marker e = m -> stacked p -> after (st_top s p) (e :: l) x.
Proof. intros E M F. split; [exact F|]. right. cbn [st_top ps_top]. rewrite E. exists e, l. auto. Qed.
Lemma after_dirs d p l x : after p l x -> after (set_dirs d p) l x.
Proof. exact (fun H => H). Qed.
Lemma upright_push s p : expects s = None -> stacked p -> upright (st_push s p).
Proof. intros E F. split; [discriminate|]. constructor; assumption. Qed.
Lemma upright_top s p : upright p -> upright (st_top s p).
Proof. exact (fun H => H). Qed.
Lemma upright_stacked p : upright p -> stacked p.
Proof. intros [_ H]. exact H. Qed.

Section Transitions.
  Variable bad : Prop.
  Variable debug : bool.
  Notation calm := (calm bad).

  Lemma calm_node_empty s e n p l : upright p -> calm (node_empty tape s e n) p l after.
  Proof.
    intros U. unfold node_empty.
    assert (K : calm (pbind tape (pupd tape st_pop) (fun _ => checked tape s e n true (fun n => EvScalar n empty_scalar_like))) p l after).
    { apply calm_bind, calm_upd, calm_checked. intros v. apply after_pop, U. }
    destruct (n_anchor n), (n_tag n); try exact K. apply calm_fail; discriminate.
  Qed.
  Lemma calm_node block k p l : upright p -> calm (parse_node tape tape_source block k) p l after.
  Proof.
    intros U. pose proof (upright_stacked p U) as S. unfold parse_node. apply calm_bind, calm_peek. intros e l' ->.
    assert (K : calm (node_content tape tape_source block k (e_read e) (e_marker e)) p (e :: l') after).
    { unfold node_content. apply calm_bind, calm_properties. intros l1 [[s a] g].
      apply calm_bind, calm_peek. intros e2 l2 ->. unfold node_variant.
      destruct (e_marker e2) eqn:M; try (apply calm_node_empty, U).
      - destruct block; [|apply calm_node_empty, U]. apply calm_bind, calm_upd, calm_checked. intros v. eapply after_first; [reflexivity|exact M|exact S].
      - destruct block; [|apply calm_node_empty, U]. apply calm_bind, calm_upd, calm_checked. intros v. eapply after_first; [reflexivity|exact M|exact S].
      - apply calm_bind, calm_upd, calm_checked. intros v. eapply after_first; [reflexivity|exact M|exact S].
      - apply calm_bind, calm_upd, calm_checked. intros v. eapply after_first; [reflexivity|exact M|exact S].
      - apply calm_bind, calm_consume_scalar. intros e3 l3 E. injection E as -> ->. split; [exact M|]. intros c.
        apply calm_bind, calm_upd, calm_checked. intros v. apply after_pop, U. }
    destruct (e_marker e) eqn:M; try exact K.
    apply calm_bind, calm_upd, calm_bind, calm_consume. intros y l'' E. injection E as -> ->. rewrite M.
    split; [discriminate|]. intros t _ T. destruct t; try discriminate. apply calm_ret, after_pop, U.
  Qed.

  Ltac hear := first
    [ apply after_pop; assumption
    | apply after_top; [reflexivity|first [assumption | apply upright_stacked; assumption | apply (upright_stacked (st_push _ _)), upright_push; [reflexivity|assumption]]]
    | eapply after_first; [reflexivity|eassumption|assumption] ].
  Ltac calms := repeat (cbv beta zeta; lazymatch goal with
    | |- calm (pbind _ _ _) _ _ _ => apply calm_bind
    | |- calm (pupd _ _) _ _ _ => apply calm_upd
    | |- calm (activate _ _) _ _ _ => apply calm_upd
    | |- calm (pret _ _) _ _ _ => apply calm_ret
    | |- calm (deliver _ _ _ _) _ _ _ => apply calm_ret
    | |- calm (empty_scalar _ _ _) _ _ _ => apply calm_ret
    | |- calm (pfail _ _) _ _ _ => apply calm_fail; discriminate
    | |- calm (peek _ _) _ _ _ => let e := fresh "e" in let l := fresh "l" in let E := fresh "E" in apply calm_peek; intros e l E; subst
    | |- calm (pop _ _) _ _ _ => let e := fresh "e" in let l := fresh "l" in let E := fresh "E" in apply calm_pop; intros e l E; try (injection E as <- <-); subst
    | |- calm (budget _ _) _ _ _ => apply calm_budget; intro
    | |- calm (skip_document_ends _ _ _) _ _ _ => apply calm_skip; intro
    | |- calm (scan_document_directives _ _) _ _ _ => apply calm_document_directives; intros ? [[? ?] ?]
    | |- calm (parse_node _ _ _ _) _ _ _ => apply calm_node; first [assumption | apply upright_push; [reflexivity|assumption]]
    | |- calm (match e_marker ?e with _ => _ end) _ _ _ => let M := fresh "M" in destruct (e_marker e) eqn:M
    | |- calm (match ?x with _ => _ end) _ _ _ => destruct x
    | |- calm (if ?x then _ else _) _ _ _ => destruct x
    | |- after _ _ _ => hear
    end).

  Lemma calm_transition p l : shape p -> ps_done p = false -> stacked p -> ahead p l ->
    (bad \/ debug = false \/ ps_top p <> StFlowSequenceMappingEnd) ->
    calm (state_transition tape tape_source debug) p l after.
  Proof.
    intros SH D S A B. destruct A as [A|A]; [congruence|].
    assert (U : poppable (ps_top p) = true -> upright p).
    { intros PP. destruct SH as [SH _]. unfold shape_of in SH. rewrite PP in SH. split; [|exact S]. intros Z. rewrite Z in SH. exact SH. }
    unfold state_transition. apply calm_bind, calm_get.
    destruct (ps_top p) eqn:TP; cbn [poppable] in U; try specialize (U eq_refl); cbn [expects] in A.
    - clear U. unfold Parser.stream_start. calms. apply calm_consume. intros y l'' E. injection E as -> ->. rewrite M.
      split; [discriminate|]. intros t _ T. destruct t; try discriminate. calms.
    - clear U. unfold Parser.stream_end. apply calm_bind, calm_get. rewrite D. destruct A as (e & l' & -> & M). apply calm_bind, calm_consume. intros y l'' E. injection E as -> ->. rewrite M.
      split; [discriminate|]. intros t _ T. destruct t; try discriminate. calms. split; [exact S|left; reflexivity].
    - clear U. unfold document_start. calms.
      all: apply after_dirs, after_top; [reflexivity|]; first [exact S | constructor; [reflexivity|exact S]].
    - unfold explicit_document_content. calms.
    - clear U. unfold document_end. calms.
    - calms.
    - calms.
    - unfold block_sequence_entry. destruct first.
      + destruct A as (e & l' & -> & M). apply calm_bind, calm_bind, calm_pop. intros e0 l0 E. injection E as <- <-.
        apply calm_assert; [left; rewrite M; reflexivity|]. calms.
      + calms.
    - unfold block_mapping_key. destruct first.
      + destruct A as (e & l' & -> & M). apply calm_bind, calm_bind, calm_peek. intros e0 l0 E. injection E as <- <-.
        apply calm_bind, calm_assert; [left; rewrite M; reflexivity|]. calms.
      + calms.
    - unfold block_mapping_value. calms.
    - unfold flow_sequence_entry, fetch_end. destruct first.
      + destruct A as (e & l' & -> & M). apply calm_bind, calm_bind, calm_pop. intros e0 l0 E. injection E as <- <-.
        apply calm_assert; [left; rewrite M; reflexivity|]. calms.
      + calms.
    - unfold flow_sequence_entry_mapping_key. calms.
    - unfold flow_sequence_entry_mapping_value. calms.
    - unfold flow_sequence_entry_mapping_end. apply calm_bind, calm_peek. intros e l' ->.
      apply calm_bind, calm_assert; [right; destruct B as [B|[B|B]]; auto; destruct (B eq_refl)|]. calms.
    - unfold flow_mapping_key, fetch_end. destruct first.
      + destruct A as (e & l' & -> & M). apply calm_bind, calm_bind, calm_pop. intros e0 l0 E. injection E as <- <-.
        apply calm_assert; [left; rewrite M; reflexivity|]. calms.
      + calms.
    - unfold flow_mapping_value. calms.
  Qed.
End Transitions.

Lemma loop_calm n : forall p l, shape p -> stacked p -> ahead p l -> calm False (event_loop tape tape_source false n) p l after.
Proof.
  induction n as [|n IH]; intros p l SH S A x X; cbn [event_loop].
  - destruct (ps_done p); [|exact Logic.I]. split; [reflexivity|]. split; assumption.
  - destruct (ps_done p) eqn:D; [split; [reflexivity|split; assumption]|].
    pose proof (calm_transition False false p l SH D S A (or_intror (or_introl eq_refl)) x X) as K.
    pose proof (fun y p' t' => transition_ok tape tape_source false p SH D (l, x) p' t' y) as OK.
    destruct (state_transition tape tape_source false p (l, x)) as [[p' [l' x']] [[e|]|e| |]]; try exact K.
    cbn [fst snd] in K. destruct K as [-> [S' A']]. destruct (OK _ p' (l', x) eq_refl) as [SH' _]. exact (IH p' l' SH' S' A' x X).
Qed.
Lemma run_calm n : forall p l x, shape p -> stacked p -> ahead p l -> x <> Panic ->
  ~ In Panic (until_failure (run_events tape_source false n p (l, x))).
Proof.
  induction n as [|n IH]; intros p l x SH S A X; cbn [run_events]; [cbn; tauto|].
  pose proof (loop_calm 3 p l SH S A x X) as K. pose proof (event_loop_ok tape tape_source false 3 p SH (l, x)) as OK. unfold next_event.
  destruct (event_loop tape tape_source false 3 p (l, x)) as [[p' [l' x']] y]. cbn [fst snd] in *.
  destruct (OK p' (l', x') y eq_refl) as [[SH' _] _].
  destruct y as [[e|]|e| |]; cbn [until_failure].
  - destruct K as [-> [S' A']]. intros [I|I]; [discriminate|]. exact (IH p' l' x SH' S' A' X I).
  - intros [I|[]]. discriminate.
  - intros [I|[]]. discriminate.
  - destruct K.
  - intros [I|[]]. discriminate.
Qed.

From Verif Require Import SpecUtf8 SpecStream StreamFacts.
(** If no consumer of the tokens sees a panic, neither does a consumer of the events. *)
Lemma text_calm t lazy : well_formed t ->
  (forall s l x, consumes (open t (as_scanner lazy)) s = (l, x) -> x <> Panic) ->
  forall n, ~ In Panic (until_failure (run_events peek_source false n parser0 (snd (events_new (Borrow t) lazy)))).
Proof.
  intros W C n. destruct (text_tape t (as_scanner lazy) W) as (l & x & R & _). cbn [events_new snd].
  change (reader_new (Borrow t) (as_scanner lazy)) with (open t (as_scanner lazy)).
  rewrite (proj1 (reading_runs _ _ _ false n parser0 R)). apply run_calm; [apply shape0|constructor|right; exact Logic.I|].
  intros ->. destruct R as (O & _). unfold on_tape in O. cbn [fst snd tape_end] in O.
  destruct (taken_schedule (List.length l + 1) (open t (as_scanner lazy))) as (s & l' & x & E & D & _ & F & _).
  apply (C s l' x E), F. rewrite O. apply in_or_app. right. left. reflexivity.
Qed.
