(** The number of events is bounded by the number of tokens. *)
From Verif Require Export EventFuel.
From Verif Require Import SpecUtf8.
From Coq Require Import Lia.
Open Scope nat_scope.

(** What a state may still deliver without reading a token. *)
Definition owed (s : state) : nat :=
  match s with
  | StStreamStart => 1
  | StDocumentStart true _ | StDocumentStart false true => 3
  | StDocumentContent | StDocumentEnd | StBlockNode | StFlowNode => 1
  | StBlockMappingValue | StFlowMappingValue _ | StFlowSequenceMappingEnd => 1
  | StFlowSequenceMappingValue => 2
  | StFlowSequenceMappingKey => 3
  | _ => 0
  end.
Fixpoint owing (l : list state) : nat := match l with [] => 0 | s :: r => owed s + owing r end.
Definition credit (p : parser) (n : nat) : nat := 3 * n + owed (ps_top p) + owing (ps_stack p).

Definition spends {A} (m : P tape A) (p : parser) (n : nat) (Q : parser -> nat -> A -> Prop) : Prop :=
  forall t p' t' a, List.length (fst t) = n -> m p t = (p', t', Ok a) -> Q p' (List.length (fst t')) a.

Lemma spends_ret {A} (a : A) p n (Q : parser -> nat -> A -> Prop) : Q p n a -> spends (pret tape a) p n Q.
Proof. intros H t p' t' b <- E. injection E as <- <- <-. exact H. Qed.
Lemma spends_fail {A} (x : pres A) p n (Q : parser -> nat -> A -> Prop) : (forall a, x <> Ok a) -> spends (pfail tape x) p n Q.
Proof. intros H t p' t' b _ E. unfold pfail in E. injection E as _ _ ->. destruct (H b eq_refl). Qed.
Lemma spends_upd f p n (Q : parser -> nat -> unit -> Prop) : Q (f p) n tt -> spends (pupd tape f) p n Q.
Proof. intros H t p' t' b <- E. unfold pupd in E. injection E as <- <- <-. exact H. Qed.
Lemma spends_bind {A B} (m : P tape A) (k : A -> P tape B) p n Q :
  spends m p n (fun p' n' a => spends (k a) p' n' Q) -> spends (pbind tape m k) p n Q.
Proof.
  intros H t p' t' b L E. unfold pbind in E. specialize (H t). destruct (m p t) as [[p1 t1] [a|e| |]]; try discriminate.
  exact (H p1 t1 a L eq_refl t1 p' t' b eq_refl E).
Qed.
Lemma spends_peek_opt p n (Q : parser -> nat -> option entry -> Prop) : (forall a, (n = 0 -> a = None) -> Q p n a) -> spends (peek_opt tape tape_source) p n Q.
Proof. intros H t p' t' b <- E. destruct t as [[|e l] x]; cbn in *; [destruct x as [[]|y| |]; try discriminate|]; injection E as <- <- <-; apply H; [auto|discriminate]. Qed.
Lemma spends_peek p n (Q : parser -> nat -> nat * marker -> Prop) : (forall a, Q p n a) -> spends (peek tape tape_source) p n Q.
Proof.
  intros H t p' t' b <- E. destruct t as [[|e l] x]; cbn in *; [destruct x; discriminate|]. injection E as <- <- <-. apply H.
Qed.
Lemma spends_pop p n (Q : parser -> nat -> entry -> Prop) : (forall n' a, n = S n' -> Q p n' a) -> spends (pop tape tape_source) p n Q.
Proof.
  intros H t p' t' b <- E. destruct t as [[|e l] x]; cbn in *; [destruct x; discriminate|]. injection E as <- <- <-. apply H. reflexivity.
Qed.
Lemma spends_consume p n (Q : parser -> nat -> nat * token -> Prop) : (forall n' a, n = S n' -> Q p n' a) -> spends (consume tape tape_source) p n Q.
Proof.
  intros H. unfold consume. apply spends_bind, spends_pop. intros n' a ->. destruct (e_wrap a) eqn:E; [apply spends_ret, H; reflexivity|apply spends_fail; discriminate].
Qed.
Lemma spends_consume_scalar p n (Q : parser -> nat -> nat * scalar_like -> Prop) : (forall n' a, n = S n' -> Q p n' a) -> spends (consume_scalar tape tape_source) p n Q.
Proof.
  intros H. unfold consume_scalar. apply spends_bind, spends_pop. intros n' a ->.
  destruct (e_wrap a) as [k|d] eqn:E; [destruct k; try (apply spends_fail; discriminate)|]; apply spends_ret, H; reflexivity.
Qed.
Lemma spends_assert debug b p n (Q : parser -> nat -> unit -> Prop) : Q p n tt -> spends (debug_assert tape debug b) p n Q.
Proof. intros H. unfold debug_assert. destruct (debug && negb b); [apply spends_fail; discriminate|apply spends_ret, H]. Qed.
Lemma spends_checked s e k b mk p n (Q : parser -> nat -> option event -> Prop) : (forall v, Q p n (Some v)) -> spends (checked tape s e k b mk) p n Q.
Proof.
  intros H t p' t' a <- E. unfold checked in E. destruct (validate_tag _ k b); try discriminate. injection E as <- <- <-. apply H.
Qed.
Lemma spends_budget p n (Q : parser -> nat -> nat -> Prop) : (forall a, Q p n a) -> spends (budget tape tape_source) p n Q.
Proof. intros H t p' t' b <- E. unfold budget in E. injection E as <- <- <-. apply H. Qed.
Lemma spends_get {A} (f : parser -> A) p n (Q : parser -> nat -> A -> Prop) : Q p n (f p) -> spends (fun p r => (p, r, Ok (f p))) p n Q.
Proof. intros H t p' t' b <- E. injection E as <- <- <-. exact H. Qed.
Lemma spends_weaken {A} (m : P tape A) p n (Q Q' : parser -> nat -> A -> Prop) :
  spends m p n Q -> (forall p' n' a, Q p' n' a -> Q' p' n' a) -> spends m p n Q'.
Proof. intros H W t p' t' a L E. apply W. exact (H t p' t' a L E). Qed.

Lemma spends_skip f : forall p n (Q : parser -> nat -> unit -> Prop), (forall n', n' <= n -> Q p n' tt) -> spends (skip_document_ends tape tape_source f) p n Q.
Proof.
  induction f as [|f IH]; intros p n Q H; cbn [skip_document_ends]; [apply spends_fail; discriminate|].
  apply spends_bind, spends_peek. intros [m k]. destruct k; try (apply spends_ret, H; lia).
  apply spends_bind, spends_pop. intros n' a ->. apply IH. intros. apply H. lia.
Qed.
Lemma spends_directives f : forall p n e seen d (Q : parser -> nat -> nat * directives -> Prop), (forall n' a, n' <= n -> Q p n' a) ->
  spends (scan_directives tape tape_source f e seen d) p n Q.
Proof.
  induction f as [|f IH]; intros p n e seen d Q H; cbn [scan_directives]; [apply spends_fail; discriminate|].
  apply spends_bind, spends_peek. intros [m k]. destruct k; try (apply spends_ret, H; lia).
  - destruct seen; [apply spends_fail; discriminate|]. apply spends_bind, spends_consume. intros n' [a b] ->.
    destruct b; try (apply spends_fail; discriminate). apply IH. intros. apply H. lia.
  - apply spends_bind, spends_consume. intros n' [a b] ->.
    destruct b; try (apply spends_fail; discriminate). destruct (tag_get _ _); [apply spends_fail; discriminate|]. apply IH. intros. apply H. lia.
Qed.
Lemma spends_document_directives p n (Q : parser -> nat -> nat * nat * directives -> Prop) : (forall n' a, n' <= n -> Q p n' a) ->
  spends (scan_document_directives tape tape_source) p n Q.
Proof.
  intros H. unfold scan_document_directives. apply spends_bind, spends_peek. intros [m k].
  apply spends_bind, spends_budget. intros f. apply spends_bind, spends_directives. intros n' [a d] L. apply spends_ret, H, L.
Qed.
Lemma spends_anchor p n (Q : parser -> nat -> option (nat * cow) -> Prop) : (forall n' a, n' <= n -> (a <> None -> n' < n) -> Q p n' a) ->
  spends (fetch_anchor tape tape_source) p n Q.
Proof.
  intros H. unfold fetch_anchor. apply spends_bind, spends_peek_opt. intros a _.
  assert (Z : spends (pret tape (@None (nat * cow))) p n Q) by (apply spends_ret, H; [lia|congruence]).
  destruct (option_map e_marker a) as [k|]; [destruct k|]; try exact Z.
  apply spends_bind, spends_consume. intros n' [x tk] ->. destruct tk; try (apply spends_fail; discriminate). apply spends_ret, H; lia.
Qed.
Lemma spends_tag p n (Q : parser -> nat -> option (nat * (cow * cow)) -> Prop) : (forall n' a, n' <= n -> (a <> None -> n' < n) -> Q p n' a) ->
  spends (fetch_tag tape tape_source) p n Q.
Proof.
  intros H. unfold fetch_tag. apply spends_bind, spends_peek_opt. intros a _.
  assert (Z : spends (pret tape (@None (nat * (cow * cow)))) p n Q) by (apply spends_ret, H; [lia|congruence]).
  destruct (option_map e_marker a) as [k|]; [destruct k|]; try exact Z.
  apply spends_bind, spends_consume. intros n' [x tk] ->. destruct tk; try (apply spends_fail; discriminate). apply spends_ret, H; lia.
Qed.
Lemma spends_properties s k p n (Q : parser -> nat -> nat * option cow * option (cow * cow) -> Prop) :
  (forall n' s' a g, n' <= n -> (a <> None \/ g <> None -> n' < n) -> Q p n' (s', a, g)) ->
  spends (properties tape tape_source s k) p n Q.
Proof.
  intros H. unfold properties.
  assert (Z : spends (pret tape (s, @None cow, @None (cow * cow))) p n Q) by (apply spends_ret, H; [lia|intros [?|?]; congruence]).
  destruct k; try exact Z.
  - apply spends_bind, spends_anchor. intros n1 a L1 S1. apply spends_bind, spends_tag. intros n2 g L2 S2. apply spends_ret, H; [lia|].
    intros [N|N]; [enough (n1 < n) by lia; apply S1; destruct a; [discriminate|cbn in N; congruence]|enough (n2 < n1) by lia; apply S2; destruct g; [discriminate|cbn in N; congruence]].
  - apply spends_bind, spends_tag. intros n1 g L1 S1. apply spends_bind, spends_anchor. intros n2 a L2 S2. apply spends_ret, H; [lia|].
    intros [N|N]; [enough (n2 < n1) by lia; apply S2; destruct a; [discriminate|cbn in N; congruence]|enough (n1 < n) by lia; apply S1; destruct g; [discriminate|cbn in N; congruence]].
Qed.

(** A node is a scalar or an alias that ends the state, having read a token, or
    the start of a collection. *)
Definition after_node (p : parser) (n : nat) (p' : parser) (n' : nat) (e : option event) : Prop :=
  e <> None /\ n' <= n /\
  (p' = st_pop p /\ n' < n \/ ps_stack p' = ps_stack p /\ owed (ps_top p') = 0).
Lemma spends_node b k p n : spends (parse_node tape tape_source b k) p n (after_node p n).
Proof.
  unfold parse_node. apply spends_bind, spends_peek. intros [s m].
  assert (C : spends (node_content tape tape_source b k s m) p n (after_node p n)).
  { unfold node_content. apply spends_bind, spends_properties. intros n1 s' a g L1 S1.
    apply spends_bind, spends_peek. intros [e mk].
    assert (E : spends (node_empty tape s' e (mkNode a g k)) p n1 (after_node p n)).
    { unfold node_empty. cbn [n_anchor n_tag].
      assert (X : a <> None \/ g <> None -> spends (pbind tape (pupd tape st_pop) (fun _ => checked tape s' e (mkNode a g k) true (fun n => EvScalar n empty_scalar_like))) p n1 (after_node p n)).
      { intros NN. apply spends_bind, spends_upd, spends_checked. intros v. split; [discriminate|]. split; [lia|]. left. auto. }
      destruct a; [apply X; left; discriminate|]. destruct g; [apply X; right; discriminate|]. apply spends_fail. discriminate. }
    unfold node_variant.
    destruct mk; try exact E; try (destruct b; [|exact E]).
    1-4: apply spends_bind, spends_upd, spends_checked; intros v; split; [discriminate|]; split; [lia|]; right; split; reflexivity.
    apply spends_bind, spends_consume_scalar. intros n2 [x y] ->. apply spends_bind, spends_upd, spends_checked. intros v. split; [discriminate|]. split; [lia|]. left. split; [reflexivity|lia]. }
  destruct m; try exact C.
  apply spends_bind, spends_upd, spends_bind, spends_consume. intros n' [x tk] ->. destruct tk; try (apply spends_fail; discriminate).
  apply spends_ret. split; [discriminate|]. split; [lia|]. left. split; [reflexivity|lia].
Qed.

Definition paid (c : nat) (p' : parser) (n' : nat) (e : option event) : Prop :=
  credit p' n' + (match e with Some _ => 1 | None => 0 end) <= c.
Lemma pop_credit p n : credit (st_pop p) n <= credit p n.
Proof. destruct p as [s [|a st] d b]; unfold credit, st_pop; cbn [ps_stack ps_top]; [lia|]. cbn [owing]. lia. Qed.
Lemma node_paid b k p n c : 3 * n + owing (ps_stack p) < c -> credit p n <= c + 2 -> spends (parse_node tape tape_source b k) p n (paid c).
Proof.
  intros C1 C2. eapply spends_weaken; [apply spends_node|]. intros p' n' e (NE & L & [[-> LT]|[E O]]); unfold paid; destruct e; try congruence.
  - pose proof (pop_credit p n'). unfold credit in *. lia.
  - unfold credit. rewrite E, O. lia.
Qed.
Lemma push_paid b k s p n c : 3 * n + owed s + owing (ps_stack p) < c -> credit (st_push s p) n <= c + 2 ->
  spends (pbind tape (pupd tape (st_push s)) (fun _ => parse_node tape tape_source b k)) p n (paid c).
Proof.
  intros C1 C2. apply spends_bind, spends_upd. apply node_paid; [|exact C2].
  destruct p as [x y z w]; unfold st_push in *; cbn [ps_stack owing] in *. lia.
Qed.

Ltac spend := repeat (cbv beta zeta; lazymatch goal with
  | |- spends (pbind _ (pupd _ (st_push _)) (fun _ => parse_node _ _ _ _)) _ _ (paid _) => apply push_paid
  | |- spends (pbind _ _ _) _ _ _ => apply spends_bind
  | |- spends (pret _ _) _ _ _ => apply spends_ret
  | |- spends (deliver _ _ _ _) _ _ _ => apply spends_ret
  | |- spends (empty_scalar _ _ _) _ _ _ => apply spends_ret
  | |- spends (pfail _ _) _ _ _ => apply spends_fail; discriminate
  | |- spends (pupd _ _) _ _ _ => apply spends_upd
  | |- spends (activate _ _) _ _ _ => apply spends_upd
  | |- spends (peek _ _) _ _ _ => apply spends_peek; intros [? ?]
  | |- spends (pop _ _) _ _ _ => apply spends_pop; intros ? ? ->
  | |- spends (consume _ _) _ _ _ => apply spends_consume; intros ? [? ?] ->
  | |- spends (debug_assert _ _ _) _ _ _ => apply spends_assert
  | |- spends (budget _ _) _ _ _ => apply spends_budget; intros ?
  | |- spends (skip_document_ends _ _ _) _ _ _ => apply spends_skip; intros ? ?
  | |- spends (scan_document_directives _ _) _ _ _ => apply spends_document_directives; intros ? [[? ?] ?] ?
  | |- spends (parse_node _ _ _ _) _ _ (paid _) => apply node_paid
  | |- spends (match ?x with _ => _ end) _ _ _ => destruct x
  | |- spends (let '_ := ?x in _) _ _ _ => destruct x
  | |- spends (if ?x then _ else _) _ _ _ => destruct x
  end).

Ltac fin :=
  unfold paid;
  try match goal with |- context [credit (st_pop ?p) ?n] => pose proof (pop_credit p n) end;
  unfold credit, st_top, st_push, set_dirs, set_done in *; cbn [ps_top ps_stack owed owing] in *; lia.

Lemma transition_paid debug p n :
  spends (state_transition tape tape_source debug) p n (paid (credit p n)).
Proof.
  intros t p' t' a L. unfold state_transition, pbind at 1. revert t p' t' a L.
  match goal with |- forall t p' t' a, _ -> ?m p t = _ -> paid ?c p' _ a => change (spends m p n (paid c)) end.
  destruct p as [s st d b]. cbn [ps_top ps_stack] in *.
  destruct s.
  - unfold Parser.stream_start. spend; fin.
  - unfold Parser.stream_end. apply spends_bind, spends_get. spend; fin.
  - unfold document_start. destruct implicit, first; cbn [andb]; spend; fin.
  - unfold explicit_document_content. spend; fin.
  - unfold document_end. spend; fin.
  - spend; fin.
  - spend; fin.
  - unfold block_sequence_entry. destruct first; spend; fin.
  - unfold block_mapping_key. destruct first; spend; fin.
  - unfold block_mapping_value. spend; fin.
  - unfold flow_sequence_entry, fetch_end. destruct first; spend; fin.
  - unfold flow_sequence_entry_mapping_key. spend; fin.
  - unfold flow_sequence_entry_mapping_value. spend; fin.
  - unfold flow_sequence_entry_mapping_end. spend; fin.
  - unfold flow_mapping_key, fetch_end. destruct first; spend; fin.
  - unfold flow_mapping_value. destruct empty; spend; fin.
Qed.

Lemma loop_paid debug f : forall p n, spends (event_loop tape tape_source debug f) p n (paid (credit p n)).
Proof.
  induction f as [|f IH]; intros p n t p' t' a L; cbn [event_loop]; destruct (ps_done p).
  - intros E. injection E as <- <- <-. unfold paid. rewrite L. lia.
  - discriminate.
  - intros E. injection E as <- <- <-. unfold paid. rewrite L. lia.
  - pose proof (transition_paid debug p n t) as T.
    destruct (state_transition tape tape_source debug p t) as [[p1 t1] [[e|]|e| |]]; try discriminate.
    + intros E. injection E as <- <- <-. apply (T p1 t1 (Some e) L eq_refl).
    + intros E. specialize (T p1 t1 None L eq_refl). specialize (IH p1 _ t1 p' t' a eq_refl E). unfold paid in *. lia.
Qed.

(** The events before the first answer that is not one. *)
Fixpoint events_of {A} (l : list (pres (option A))) : nat :=
  match l with Ok (Some _) :: l => S (events_of l) | _ => 0 end.
Lemma run_paid debug n : forall p t, events_of (run_events tape_source debug n p t) <= credit p (List.length (fst t)).
Proof.
  induction n as [|n IH]; intros p t; cbn [run_events events_of]; [lia|].
  pose proof (loop_paid debug 3 p (List.length (fst t)) t) as L. unfold next_event.
  destruct (event_loop tape tape_source debug 3 p t) as [[p' t'] [[e|]|e| |]]; cbn [events_of]; try lia.
  specialize (L p' t' (Some e) eq_refl eq_refl). unfold paid in L. specialize (IH p' t'). lia.
Qed.
Lemma until_events {A} (l : list (pres (option A))) : events_of (until_failure l) = events_of l.
Proof. induction l as [|[[e|]|e| |] l IH]; cbn; [reflexivity|f_equal; exact IH|reflexivity..]. Qed.
Lemma events_first {A} (l : list (pres (option A))) : events_of l < List.length l ->
  exists x, nth_error l (events_of l) = Some x /\ forall e, x <> Ok (Some e).
Proof.
  induction l as [|[[e|]|e| |] l IH]; cbn; intros L; [lia|apply IH; lia|..]; eexists; split; try reflexivity; discriminate.
Qed.
Lemma run_length {R} (T : token_source R) debug n : forall p r, List.length (run_events T debug n p r) = n.
Proof. induction n as [|n IH]; intros p r; cbn [run_events]; [reflexivity|]. destruct (next_event T debug p r) as [[p' r'] x]. cbn. f_equal. apply IH. Qed.

Lemma until_nth {A} (l : list (pres (option A))) i x : nth_error (until_failure l) i = Some x -> nth_error l i = Some x.
Proof.
  revert i; induction l as [|[[e|]|e| |] l IH]; intros i; cbn; [destruct i; discriminate|..]; destruct i as [|i]; cbn; auto; destruct i; discriminate.
Qed.
Lemma until_same {A} (l l' : list (pres (option A))) : until_failure l = until_failure l' -> forall i x,
  (forall j, j < i -> exists e, nth_error l j = Some (Ok (Some e))) -> nth_error l i = Some x -> nth_error l' i = Some x.
Proof.
  intros E i x B N. apply until_nth. rewrite <- E. clear E l'. revert l B N. induction i as [|i IH]; intros l B N.
  - destruct l as [|[[e|]|e| |] l]; cbn in *; congruence.
  - destruct l as [|y l]; [discriminate|]. destruct (B 0 (Nat.lt_0_succ i)) as (e & Y). cbn in Y. injection Y as ->. cbn.
    apply IH; [|exact N]. intros j J. apply (B (S j)). lia.
Qed.
Lemma events_before {A} (l : list (pres (option A))) j : j < events_of l -> exists e, nth_error l j = Some (Ok (Some e)).
Proof.
  revert j; induction l as [|[[e|]|e| |] l IH]; intros j; cbn; try lia. destruct j as [|j]; [eexists; reflexivity|]. intros L. apply IH. lia.
Qed.

Lemma run_more {R} (T : token_source R) debug n : forall m p r i, i < n -> n <= m ->
  nth_error (run_events T debug m p r) i = nth_error (run_events T debug n p r) i.
Proof.
  induction n as [|n IH]; intros m p r i I L; [lia|]. destruct m as [|m]; [lia|]. cbn [run_events].
  destruct (next_event T debug p r) as [[p' r'] x]. destruct i as [|i]; [reflexivity|]. cbn. apply IH; lia.
Qed.

Lemma text_ends t lazy debug : well_formed t -> exists k x, k <= 18 * List.length t + 13 /\
  x <> Fuel /\ (forall e, x <> Ok (Some e)) /\
  forall n, k < n -> let xs := run_events peek_source debug n parser0 (snd (events_new (Borrow t) lazy)) in
    nth_error xs k = Some x /\ forall i, i < k -> exists e, nth_error xs i = Some (Ok (Some e)).
Proof.
  intros W. set (r := snd (events_new (Borrow t) lazy)).
  set (b := 18 * List.length t + 14).
  set (xs := run_events peek_source debug b parser0 r).
  assert (K : events_of xs <= 18 * List.length t + 13).
  { destruct (text_tape t (as_scanner lazy) W) as (l & y & R & F).
    pose proof (proj1 (reading_runs _ _ _ debug b parser0 R)) as E. unfold xs.
    rewrite <- until_events. unfold r, events_new. cbn [snd].
    etransitivity; [apply Nat.eq_le_incl; exact (f_equal events_of E)|]. rewrite until_events. pose proof (run_paid debug b parser0 (l, y)) as B.
    destruct R as (_ & _ & L). cbn [fst] in *. unfold credit in B. cbn [parser0 ps_top ps_stack owed owing] in B. lia. }
  destruct (events_first xs) as (x & N & NE); [unfold xs at 2; rewrite run_length; lia|].
  exists (events_of xs), x. split; [exact K|]. split; [|split; [exact NE|]].
  - intros ->. apply (text_answers t lazy debug b W). fold r. fold xs. clear - N.
    induction xs as [|[[e|]|e| |] xs IH]; cbn in *; try discriminate; auto.
  - intros n L. cbv zeta.
    assert (M : forall i, i <= events_of xs -> nth_error (run_events peek_source debug n parser0 r) i = nth_error xs i).
    { intros i I. unfold xs. destruct (Nat.le_ge_cases b n).
      - apply run_more; [lia|assumption].
      - symmetry. apply run_more; [lia|assumption]. }
    split; [rewrite M; [exact N|lia]|]. intros i I. rewrite M by lia. apply events_before, I.
Qed.
