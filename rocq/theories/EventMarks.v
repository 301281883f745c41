(** The marks of events. *)
From Verif Require Import SpecTape SpecMarks SpecUtf8.
From Coq Require Import Lia.
Open Scope nat_scope.

(** Tokens in order, from a position on. *)
Fixpoint low (b : nat) (l : list entry) : Prop := match l with [] => True | e :: r => b <= e_read e /\ low (e_read e) r end.
Lemma low_head b e r : low b (e :: r) -> low (e_read e) (e :: r).
Proof. cbn. intros [_ H]. auto. Qed.

Section Marks.
  Variable L : list entry.

  Definition reads {A} (m : P tape A) (b : nat) (l : list entry) (Q : nat -> list entry -> A -> Prop) : Prop :=
    low b l -> incl l L -> forall x p p' t' a, m p (l, x) = (p', t', Ok a) ->
      exists b', b <= b' /\ low b' (fst t') /\ incl (fst t') L /\ Q b' (fst t') a.

  Lemma reads_ret {A} (a : A) b l (Q : nat -> list entry -> A -> Prop) : Q b l a -> reads (pret tape a) b l Q.
  Proof. intros H LO I x p p' t' a' E. injection E as <- <- <-. exists b. auto. Qed.
  Lemma reads_fail {A} (y : pres A) b l (Q : nat -> list entry -> A -> Prop) : (forall a, y <> Ok a) -> reads (pfail tape y) b l Q.
  Proof. intros H LO I x p p' t' a E. unfold pfail in E. injection E as _ _ ->. destruct (H a eq_refl). Qed.
  Lemma reads_upd f b l (Q : nat -> list entry -> unit -> Prop) : Q b l tt -> reads (pupd tape f) b l Q.
  Proof. intros H LO I x p p' t' a' E. injection E as <- <- <-. exists b. auto. Qed.
  Lemma reads_bind {A B} (m : P tape A) (k : A -> P tape B) b l Q :
    reads m b l (fun b' l' a => reads (k a) b' l' Q) -> reads (pbind tape m k) b l Q.
  Proof.
    intros H LO I x p p' t' a E. unfold pbind in E. specialize (H LO I x p). destruct (m p (l, x)) as [[p1 [l1 x1]] [c|e| |]]; try discriminate.
    destruct (H p1 (l1, x1) c eq_refl) as (b1 & B1 & LO1 & I1 & H1). cbn [fst] in *.
    destruct (H1 LO1 I1 x1 p1 p' t' a E) as (b2 & B2 & R). exists b2. split; [lia|exact R].
  Qed.
  Lemma reads_peek_opt b l (Q : nat -> list entry -> option entry -> Prop) :
    (forall e r, l = e :: r -> b <= e_read e -> In e L -> Q (e_read e) l (Some e)) -> (l = [] -> Q b l None) -> reads (peek_opt tape tape_source) b l Q.
  Proof.
    intros H1 H2 LO I x p p' t' a E. destruct l as [|e r]; cbn in E.
    - destruct x as [u|y| |]; try discriminate. injection E as <- <- <-. exists b. auto.
    - injection E as <- <- <-. exists (e_read e). cbn [fst]. split; [apply LO|]. split; [apply (low_head b), LO|]. split; [exact I|]. apply (H1 e r); [reflexivity|apply LO|]. apply I. left. reflexivity.
  Qed.
  Lemma reads_peek b l (Q : nat -> list entry -> nat * marker -> Prop) :
    (forall e r, l = e :: r -> b <= e_read e -> In e L -> Q (e_read e) l (e_read e, e_marker e)) -> reads (peek tape tape_source) b l Q.
  Proof.
    intros H. unfold peek. apply reads_bind, reads_peek_opt; [|intros _; apply reads_fail; discriminate].
    intros e r E1 E2 I. apply reads_ret. eapply H; eassumption.
  Qed.
  Lemma reads_pop b l (Q : nat -> list entry -> entry -> Prop) :
    (forall e r, l = e :: r -> b <= e_read e -> In e L -> Q (e_read e) r e) -> reads (pop tape tape_source) b l Q.
  Proof.
    intros H LO I x p p' t' a E. destruct l as [|e r]; cbn in E.
    - destruct x as [u|y| |]; discriminate.
    - injection E as <- <- <-. exists (e_read e). cbn [fst]. split; [apply LO|]. split; [apply LO|]. split; [intros z Z; apply I; right; exact Z|]. apply H; [reflexivity|apply LO|apply I; left; reflexivity].
  Qed.
  Lemma reads_consume b l (Q : nat -> list entry -> nat * token -> Prop) :
    (forall e r k, l = e :: r -> b <= e_read e -> In e L -> e_wrap e = Tok k -> Q (e_read e) r (e_read e, k)) -> reads (consume tape tape_source) b l Q.
  Proof.
    intros H. unfold consume. apply reads_bind, reads_pop. intros e r -> B I.
    destruct (e_wrap e) eqn:E; [apply reads_ret, H; auto|apply reads_fail; discriminate].
  Qed.
  Lemma reads_consume_scalar b l (Q : nat -> list entry -> nat * scalar_like -> Prop) :
    (forall e r s, l = e :: r -> b <= e_read e -> In e L ->
       e_wrap e = match s with Eager t k => Tok (TScalar t k) | LazyS d => Lazy d end -> Q (e_read e) r (e_read e, s)) ->
    reads (consume_scalar tape tape_source) b l Q.
  Proof.
    intros H. unfold consume_scalar. apply reads_bind, reads_pop. intros e r -> B I.
    destruct (e_wrap e) as [k|d] eqn:E; [destruct k; try (apply reads_fail; discriminate)|]; apply reads_ret, H; auto.
  Qed.
  Lemma reads_assert debug c b l (Q : nat -> list entry -> unit -> Prop) : Q b l tt -> reads (debug_assert tape debug c) b l Q.
  Proof. intros H. unfold debug_assert. destruct (debug && negb c); [apply reads_fail; discriminate|apply reads_ret, H]. Qed.
  Lemma reads_checked s e n c mk b l (Q : nat -> list entry -> option event -> Prop) :
    (forall n, Q b l (Some (mkEvent s e (mk n)))) -> reads (checked tape s e n c mk) b l Q.
  Proof.
    intros H LO I x p p' t' a E. unfold checked in E. destruct (validate_tag _ n c); try discriminate. injection E as <- <- <-. exists b. auto.
  Qed.
  Lemma reads_budget b l (Q : nat -> list entry -> nat -> Prop) : (forall a, Q b l a) -> reads (budget tape tape_source) b l Q.
  Proof. intros H LO I x p p' t' a E. unfold budget in E. injection E as <- <- <-. exists b. auto. Qed.
  Lemma reads_get {A} (f : parser -> A) b l (Q : nat -> list entry -> A -> Prop) : (forall a, Q b l a) -> reads (fun p r => (p, r, Ok (f p))) b l Q.
  Proof. intros H LO I x p p' t' a E. injection E as <- <- <-. exists b. auto. Qed.

  Lemma reads_skip f : forall b l (Q : nat -> list entry -> unit -> Prop), (forall b' l', b <= b' -> Q b' l' tt) -> reads (skip_document_ends tape tape_source f) b l Q.
  Proof.
    induction f as [|f IH]; intros b l Q H; cbn [skip_document_ends]; [apply reads_fail; discriminate|].
    apply reads_bind, reads_peek. intros e r -> B I.
    destruct (e_marker e); try (apply reads_ret, H; lia).
    apply reads_bind, reads_pop. intros e' r' _ B' I'. apply IH. intros. apply H. lia.
  Qed.
  Lemma reads_directives f : forall b l m seen d (Q : nat -> list entry -> nat * directives -> Prop), m <= b ->
    (exists e, In e L /\ e_read e = m) ->
    (forall b' l' m' d', b <= b' -> m <= m' <= b' -> (exists e, In e L /\ e_read e = m') -> Q b' l' (m', d')) ->
    reads (scan_directives tape tape_source f m seen d) b l Q.
  Proof.
    induction f as [|f IH]; intros b l m seen d Q M W H; cbn [scan_directives]; [apply reads_fail; discriminate|].
    apply reads_bind, reads_peek. intros e r -> B I.
    destruct (e_marker e); try (apply reads_ret, H; [lia|lia|exact W]).
    - destruct seen; [apply reads_fail; discriminate|]. apply reads_bind, reads_consume. intros e' r' k _ B' I' K.
      destruct k; try (apply reads_fail; discriminate). apply IH; [lia|eexists; split; [exact I'|reflexivity]|]. intros. apply H; auto; lia.
    - apply reads_bind, reads_consume. intros e' r' k _ B' I' K.
      destruct k; try (apply reads_fail; discriminate). destruct (tag_get _ _); [apply reads_fail; discriminate|].
      apply IH; [lia|eexists; split; [exact I'|reflexivity]|]. intros. apply H; auto; lia.
  Qed.
  Lemma reads_document_directives b l (Q : nat -> list entry -> nat * nat * directives -> Prop) :
    (forall b' l' s e d, b <= s <= e -> e <= b' -> (exists y, In y L /\ e_read y = e) -> Q b' l' (s, e, d)) ->
    reads (scan_document_directives tape tape_source) b l Q.
  Proof.
    intros H. unfold scan_document_directives. apply reads_bind, reads_peek. intros e r -> B I.
    apply reads_bind, reads_budget. intros f. apply reads_bind, reads_directives; [lia|exists e; auto|].
    intros b' l' m' d' B1 B2 W. apply reads_ret, H; [lia|lia|exact W].
  Qed.
  Lemma reads_anchor b l (Q : nat -> list entry -> option (nat * cow) -> Prop) :
    (forall b' l' a, b <= b' -> match a with Some (m, _) => b <= m <= b' | None => True end -> Q b' l' a) -> reads (Parser.fetch_anchor tape tape_source) b l Q.
  Proof.
    intros H. unfold Parser.fetch_anchor. apply reads_bind, reads_peek_opt; [|intros ->; apply reads_ret, H; auto].
    intros e r -> B I. cbn [option_map]. destruct (e_marker e); try (apply reads_ret, H; [lia|exact Logic.I]).
    apply reads_bind, reads_consume. intros e' r' k _ B' I' K. destruct k; try (apply reads_fail; discriminate). apply reads_ret, H; lia.
  Qed.
  Lemma reads_tag b l (Q : nat -> list entry -> option (nat * (cow * cow)) -> Prop) :
    (forall b' l' a, b <= b' -> match a with Some (m, _) => b <= m <= b' | None => True end -> Q b' l' a) -> reads (Parser.fetch_tag tape tape_source) b l Q.
  Proof.
    intros H. unfold Parser.fetch_tag. apply reads_bind, reads_peek_opt; [|intros ->; apply reads_ret, H; auto].
    intros e r -> B I. cbn [option_map]. destruct (e_marker e); try (apply reads_ret, H; [lia|exact Logic.I]).
    apply reads_bind, reads_consume. intros e' r' k _ B' I' K. destruct k; try (apply reads_fail; discriminate). apply reads_ret, H; lia.
  Qed.
  Lemma reads_properties s k b l (Q : nat -> list entry -> nat * option cow * option (cow * cow) -> Prop) : s <= b ->
    (forall b' l' s' a g, b <= b' -> s <= s' <= b' -> Q b' l' (s', a, g)) -> reads (properties tape tape_source s k) b l Q.
  Proof.
    intros S H. unfold properties. destruct k; try (apply reads_ret, H; lia).
    - apply reads_bind, reads_anchor. intros b1 l1 a B1 A. apply reads_bind, reads_tag. intros b2 l2 g B2 G. apply reads_ret, H; [lia|].
      destruct a as [[]|], g as [[]|]; cbn [mark_or]; lia.
    - apply reads_bind, reads_tag. intros b1 l1 g B1 G. apply reads_bind, reads_anchor. intros b2 l2 a B2 A. apply reads_ret, H; [lia|].
      destruct a as [[]|], g as [[]|]; cbn [mark_or]; lia.
  Qed.

  (** The event lies between the tokens read before and those to come. *)
  Definition marked (b : nat) (b' : nat) (l' : list entry) (a : option event) : Prop :=
    match a with
    | None => True
    | Some v => b <= ev_start v <= ev_end v /\ ev_end v <= b' /\
        exists e, In e L /\ e_read e = ev_end v /\ fits (ev_data v) (e_wrap e)
    end.
  Lemma wrap_of e m : e_marker e = m -> match m with
    | MFlowSequenceStart => e_wrap e = Tok TFlowSequenceStart | MFlowMappingStart => e_wrap e = Tok TFlowMappingStart
    | MBlockSequenceStart => e_wrap e = Tok TBlockSequenceStart | MBlockMappingStart => e_wrap e = Tok TBlockMappingStart
    | MKey => e_wrap e = Tok TKey | MBlockEnd => e_wrap e = Tok TBlockEnd | MFlowSequenceEnd => e_wrap e = Tok TFlowSequenceEnd
    | MDocumentStart => e_wrap e = Tok TDocumentStart | MDocumentEnd => e_wrap e = Tok TDocumentEnd | _ => True end.
  Proof. intros <-. unfold e_marker, maybe_marker. destruct (e_wrap e) as [k|d]; [destruct k|]; cbn; auto; destruct d; cbn; auto. Qed.
  Ltac tagged := match goal with H : e_marker ?e = _ |- _ => pose proof (wrap_of e _ H) as Wrap; cbn in Wrap end.

  Lemma reads_node block k b0 b l : b0 <= b -> reads (parse_node tape tape_source block k) b l (marked b0).
  Proof.
    intros B0. unfold parse_node. apply reads_bind, reads_peek. intros e0 r0 -> B I.
    assert (C : reads (node_content tape tape_source block k (e_read e0) (e_marker e0)) (e_read e0) (e0 :: r0) (marked b0)).
    { unfold node_content. apply reads_bind, reads_properties; [lia|]. intros b1 l1 s' a g L1 S1.
      apply reads_bind, reads_peek. intros e r -> B2 I2.
      assert (E : reads (node_empty tape s' (e_read e) (mkNode a g k)) (e_read e) (e :: r) (marked b0)).
      { unfold node_empty. cbn [n_anchor n_tag].
        assert (X : reads (pbind tape (pupd tape st_pop) (fun _ => checked tape s' (e_read e) (mkNode a g k) true (fun n => EvScalar n empty_scalar_like))) (e_read e) (e :: r) (marked b0)).
        { apply reads_bind, reads_upd, reads_checked. intros v. cbn. split; [lia|]. split; [lia|]. exists e. auto. }
        destruct a; [exact X|]. destruct g; [exact X|]. apply reads_fail. discriminate. }
      unfold node_variant.
      destruct (e_marker e) eqn:M; try exact E; try (destruct block; [|exact E]); tagged.
      1-4: apply reads_bind, reads_upd, reads_checked; intros v; cbn; (split; [lia|]); (split; [lia|]); exists e; auto.
      apply reads_bind, reads_consume_scalar. intros e' r' s EQ B3 I3 W. injection EQ as <- <-. apply reads_bind, reads_upd, reads_checked. intros v.
      cbn. split; [lia|]. split; [lia|]. exists e. split; [exact I2|]. split; [reflexivity|]. destruct s; auto. }
    destruct (e_marker e0); try exact C.
    apply reads_bind, reads_upd, reads_bind, reads_consume. intros e' r' tk EQ B1 I1 W. destruct tk; try (apply reads_fail; discriminate).
    apply reads_ret. cbn. split; [lia|]. split; [lia|]. exists e'. auto.
  Qed.

  Ltac go := repeat (cbv beta zeta; lazymatch goal with
    | |- reads (pbind _ _ _) _ _ _ => apply reads_bind
    | |- reads (pret _ _) _ _ _ => apply reads_ret
    | |- reads (deliver _ _ _ _) _ _ _ => apply reads_ret
    | |- reads (empty_scalar _ _ _) _ _ _ => apply reads_ret
    | |- reads (pfail _ _) _ _ _ => apply reads_fail; discriminate
    | |- reads (pupd _ _) _ _ _ => apply reads_upd
    | |- reads (activate _ _) _ _ _ => apply reads_upd
    | |- reads (peek _ _) _ _ _ => apply reads_peek; let Q := fresh in intros ? ? Q ? ?; try (injection Q as <- <-); subst
    | |- reads (pop _ _) _ _ _ => apply reads_pop; let Q := fresh in intros ? ? Q ? ?; try (injection Q as <- <-); subst
    | |- reads (consume _ _) _ _ _ => apply reads_consume; let Q := fresh in intros ? ? ? Q ? ? ?; try (injection Q as <- <-); subst
    | |- reads (debug_assert _ _ _) _ _ _ => apply reads_assert
    | |- reads (budget _ _) _ _ _ => apply reads_budget; intros ?
    | |- reads (skip_document_ends _ _ _) _ _ _ => apply reads_skip; intros ? ? ?
    | |- reads (scan_document_directives _ _) _ _ _ => apply reads_document_directives; intros ? ? ? ? ? ? ? (? & ? & ?)
    | |- reads (parse_node _ _ _ _) _ _ (marked _) => apply reads_node
    | |- reads (match e_marker ?e with _ => _ end) _ _ _ => destruct (e_marker e) eqn:?
    | |- reads (match ?x with _ => _ end) _ _ _ => destruct x eqn:?
    end).
  Ltac fin := try lia; try exact Logic.I; cbn; (split; [lia|]); (split; [lia|]);
    match goal with
    | H : In ?e L |- _ => exists e; split; [exact H|]; split; [first [reflexivity|assumption|lia]|];
        solve [exact Logic.I | auto | pose proof (wrap_of e _ eq_refl) as Wrap; cbn in Wrap;
          repeat match goal with M : e_marker e = _ |- _ => rewrite M in Wrap end; cbn in Wrap; auto]
    end.

  Lemma reads_transition debug b l : forall p, forall x p' t' a, low b l -> incl l L -> state_transition tape tape_source debug p (l, x) = (p', t', Ok a) ->
    exists b', b <= b' /\ low b' (fst t') /\ incl (fst t') L /\ marked b b' (fst t') a.
  Proof.
    intros p x p' t' a LO I E.
    enough (X : reads (state_transition tape tape_source debug) b l (marked b)) by exact (X LO I x p p' t' a E). clear.
    unfold state_transition. apply reads_bind, reads_get. intros s. destruct s.
    - unfold Parser.stream_start. go; fin.
    - unfold Parser.stream_end. apply reads_bind, reads_get. intros d. go; fin.
    - unfold document_start. destruct implicit, first; cbn [andb]; go; fin.
    - unfold explicit_document_content. go; fin.
    - unfold document_end. go; fin.
    - go; fin.
    - go; fin.
    - unfold block_sequence_entry. destruct first; go; fin.
    - unfold block_mapping_key. destruct first; go; fin.
    - unfold block_mapping_value. go; fin.
    - unfold flow_sequence_entry, fetch_end. destruct first; go; fin.
    - unfold flow_sequence_entry_mapping_key. go; fin.
    - unfold flow_sequence_entry_mapping_value. go; fin.
    - unfold flow_sequence_entry_mapping_end. go; fin.
    - unfold flow_mapping_key, fetch_end. destruct first; go; fin.
    - unfold flow_mapping_value. destruct empty; go; fin.
  Qed.
End Marks.
