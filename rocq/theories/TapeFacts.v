(** The parser reads its source only by looking and taking: sources that answer
    alike give the same events. *)
From Verif Require Export SpecTape.
From Coq Require Import Lia.

Section Sim.
  Variable R : Type.
  Variable T : token_source R.
  Variable debug : bool.
  Variable Rel : R -> tape -> Prop.
  Definition broken (t : tape) : Prop := forall a, snd t <> Ok a.
  Hypothesis look_sim : forall r t, Rel r t ->
    snd (ts_look T r) = tape_next t /\ (Rel (fst (ts_look T r)) t \/ broken t /\ fst t = []).
  Hypothesis pop_sim : forall r t, Rel r t ->
    snd (ts_pop T r) = tape_next t /\ (Rel (fst (ts_pop T r)) (tl (fst t), snd t) \/ broken t /\ fst t = []).
  Hypothesis budget_sim : forall r t, Rel r t -> List.length (fst t) <= ts_budget T r.

  Definition agrees {A} (t0 : tape) (a : parser * R * pres A) (b : parser * tape * pres A) : Prop :=
    snd a = snd b /\ snd (snd (fst b)) = snd t0 /\
    (fst (fst a) = fst (fst b) /\ Rel (snd (fst a)) (snd (fst b)) \/ broken t0 /\ forall x, snd a <> Ok x).
  Definition sim {A} (m1 : P R A) (m2 : P tape A) : Prop :=
    forall p r t, Rel r t -> agrees t (m1 p r) (m2 p t).

  Lemma sim_ret {A} (a : A) : sim (pret R a) (pret tape a).
  Proof. intros p r t H. split; [reflexivity|]. split; [reflexivity|]. left. auto. Qed.
  Lemma sim_fail {A} (x : pres A) : sim (pfail R x) (pfail tape x).
  Proof. intros p r t H. split; [reflexivity|]. split; [reflexivity|]. left. auto. Qed.
  Lemma sim_upd f : sim (pupd R f) (pupd tape f).
  Proof. intros p r t H. split; [reflexivity|]. split; [reflexivity|]. left. auto. Qed.
  Lemma sim_bind {A B} m1 m2 (k1 : A -> P R B) k2 : sim m1 m2 -> (forall a, sim (k1 a) (k2 a)) ->
    sim (pbind R m1 k1) (pbind tape m2 k2).
  Proof.
    intros M K p r t H. unfold pbind. destruct (M p r t H) as (E & TT & D).
    destruct (m1 p r) as [[p1 r1] x1], (m2 p t) as [[p2 t2] x2]. cbn [fst snd] in *. subst x2.
    destruct x1 as [a|e| |].
    - destruct D as [[-> D]|[_ D]]; [|destruct (D a eq_refl)].
      destruct (K a p2 r1 t2 D) as (E' & T' & D'). split; [exact E'|]. split; [congruence|].
      destruct D' as [D'|[BR D']]; [left; exact D'|right]. split; [|exact D']. unfold broken in *. rewrite <- TT. exact BR.
    - split; [reflexivity|]. split; [exact TT|]. destruct D as [D|[D _]]; [left; exact D|right; split; [exact D|discriminate]].
    - split; [reflexivity|]. split; [exact TT|]. destruct D as [D|[D _]]; [left; exact D|right; split; [exact D|discriminate]].
    - split; [reflexivity|]. split; [exact TT|]. destruct D as [D|[D _]]; [left; exact D|right; split; [exact D|discriminate]].
  Qed.
  Lemma broken_err t : broken t -> fst t = [] -> forall x, map_err parse_error_of_reader (tape_next t) <> Ok x.
  Proof. intros B E x. unfold tape_next. rewrite E. unfold broken in B. destruct (snd t) as [[]|e| |]; [destruct (B tt eq_refl)|discriminate..]. Qed.
  Lemma sim_peek_opt : sim (peek_opt R T) (peek_opt tape tape_source).
  Proof.
    intros p r t H. unfold peek_opt. destruct (look_sim r t H) as [E D]. destruct (ts_look T r) as [r' x]. cbn [fst snd ts_look tape_source] in *. subst x.
    split; [reflexivity|]. split; [reflexivity|]. destruct D as [D|[B D]]; [left; auto|right]. split; [exact B|]. apply broken_err; assumption.
  Qed.
  Lemma sim_take : sim (fun p r => let (r', x) := ts_pop T r in (p, r', map_err parse_error_of_reader x))
    (fun p t => let (t', x) := ts_pop tape_source t in (p, t', map_err parse_error_of_reader x)).
  Proof.
    intros p r t H. destruct (pop_sim r t H) as [E D]. destruct (ts_pop T r) as [r' x]. cbn [fst snd ts_pop tape_source] in *. subst x.
    split; [reflexivity|]. split; [reflexivity|]. destruct D as [D|[B D]]; [left; auto|right]. split; [exact B|]. apply broken_err; assumption.
  Qed.
  Lemma sim_get {A} (f : parser -> A) : sim (fun p r => (p, r, Ok (f p))) (fun p r => (p, r, Ok (f p))).
  Proof. intros p r t H. split; [reflexivity|]. split; [reflexivity|]. left. auto. Qed.
  Lemma sim_checked s e n b mk : sim (checked R s e n b mk) (checked tape s e n b mk).
  Proof.
    intros p r t H. unfold checked. destruct (validate_tag _ n b); (split; [reflexivity|]; split; [reflexivity|]; left; auto).
  Qed.

  Ltac sims :=
    repeat first
      [ apply sim_ret | apply sim_fail | apply sim_upd | apply sim_peek_opt | apply sim_take | apply sim_checked | apply sim_get
      | assumption
      | progress cbv beta zeta
      | match goal with |- sim (pbind _ _ _) _ => apply sim_bind; [|intro] end
      | match goal with
        | |- sim (match ?x with _ => _ end) _ => destruct x
        | |- sim (let '_ := ?x in _) _ => destruct x
        | |- sim (if ?x then _ else _) _ => destruct x
        end ].

  Lemma sim_peek : sim (peek R T) (peek tape tape_source).
  Proof. unfold peek. sims. Qed.
  Lemma sim_pop : sim (pop R T) (pop tape tape_source).
  Proof. unfold pop. sims. Qed.
  Lemma sim_consume : sim (consume R T) (consume tape tape_source).
  Proof. unfold consume. pose proof sim_pop. sims. Qed.
  Lemma sim_consume_scalar : sim (consume_scalar R T) (consume_scalar tape tape_source).
  Proof. unfold consume_scalar. pose proof sim_pop. sims. Qed.
  Lemma sim_assert b : sim (debug_assert R debug b) (debug_assert tape debug b).
  Proof. unfold debug_assert. sims. Qed.
  Lemma sim_deliver s e d : sim (deliver R s e d) (deliver tape s e d).
  Proof. unfold deliver. sims. Qed.
  Lemma sim_empty m k : sim (empty_scalar R m k) (empty_scalar tape m k).
  Proof. unfold empty_scalar. apply sim_deliver. Qed.


  (** ** The loops that consume tokens have fuel enough *)
  Definition simb {A} (n : nat) (m1 : P R A) (m2 : P tape A) : Prop :=
    forall p r t, Rel r t -> List.length (fst t) <= n -> agrees t (m1 p r) (m2 p t).
  Lemma simb_sim {A} n (m1 : P R A) m2 : sim m1 m2 -> simb n m1 m2.
  Proof. intros S p r t H _. apply S, H. Qed.
  Lemma simb_bind {A B} n n' m1 m2 (k1 : A -> P R B) k2 : sim m1 m2 ->
    (forall p t, List.length (fst t) <= n -> forall a, snd (m2 p t) = Ok a -> List.length (fst (snd (fst (m2 p t)))) <= n') ->
    (forall a, simb n' (k1 a) (k2 a)) -> simb n (pbind R m1 k1) (pbind tape m2 k2).
  Proof.
    intros M N K p r t H L. unfold pbind. destruct (M p r t H) as (E & TT & D). specialize (N p t L).
    destruct (m1 p r) as [[p1 r1] x1], (m2 p t) as [[p2 t2] x2]. cbn [fst snd] in *. subst x2.
    destruct x1 as [a|e| |].
    - destruct D as [[-> D]|[_ D]]; [|destruct (D a eq_refl)].
      destruct (K a p2 r1 t2 D (N a eq_refl)) as (E' & T' & D'). split; [exact E'|]. split; [congruence|].
      destruct D' as [D'|[BR D']]; [left; exact D'|right]. split; [|exact D']. unfold broken in *. rewrite <- TT. exact BR.
    - split; [reflexivity|]. split; [exact TT|]. destruct D as [D|[D _]]; [left; exact D|right; split; [exact D|discriminate]].
    - split; [reflexivity|]. split; [exact TT|]. destruct D as [D|[D _]]; [left; exact D|right; split; [exact D|discriminate]].
    - split; [reflexivity|]. split; [exact TT|]. destruct D as [D|[D _]]; [left; exact D|right; split; [exact D|discriminate]].
  Qed.
  Lemma peek_tape p t a : snd (peek tape tape_source p t) = Ok a -> snd (fst (peek tape tape_source p t)) = t /\ fst t <> [].
  Proof.
    unfold peek, pbind, peek_opt. cbn [ts_look tape_source]. unfold tape_next. destruct t as [[|e l] x]; cbn; [destruct x; discriminate|].
    intros _. split; [reflexivity|discriminate].
  Qed.
  Lemma pop_tape p t a : snd (pop tape tape_source p t) = Ok a -> snd (fst (pop tape tape_source p t)) = (tl (fst t), snd t) /\ fst t <> [].
  Proof.
    unfold pop, pbind. cbn [ts_pop tape_source]. unfold tape_next. destruct t as [[|e l] x]; cbn; [destruct x; discriminate|].
    intros _. split; [reflexivity|discriminate].
  Qed.
  Lemma consume_tape p t a : snd (consume tape tape_source p t) = Ok a -> snd (fst (consume tape tape_source p t)) = (tl (fst t), snd t) /\ fst t <> [].
  Proof.
    unfold consume, pop, pbind. cbn [ts_pop tape_source]. unfold tape_next. destruct t as [[|e l] x]; cbn; [destruct x; discriminate|].
    destruct (e_wrap e); cbn; [|discriminate]. intros _. split; [reflexivity|discriminate].
  Qed.
  Lemma simb_peek {B} n (k1 : nat * marker -> P R B) k2 : (n <> 0 -> forall a, simb n (k1 a) (k2 a)) -> simb n (pbind R (peek R T) k1) (pbind tape (peek tape tape_source) k2).
  Proof.
    intros K. destruct n as [|n].
    - intros p r t H L. refine (simb_bind 0 0 (peek R T) _ (fun _ => k1 (0, MStreamEnd)) (fun _ => k2 (0, MStreamEnd)) sim_peek _ _ p r t H L) || idtac.
      assert (E : fst t = []) by (destruct (fst t); [reflexivity|cbn in L; lia]).
      destruct (sim_peek p r t H) as (X & TT & D). pose proof (peek_tape p t) as NP. rewrite E in NP.
      unfold pbind. destruct (peek R T p r) as [[p1 r1] x1], (peek tape tape_source p t) as [[p2 t2] x2]. cbn [fst snd] in *. subst x2.
      destruct x1 as [a|er| |]; [destruct (NP a eq_refl) as [_ []]; reflexivity|..]; (split; [reflexivity|]; split; [exact TT|]; destruct D as [D|[D _]]; [left; exact D|right; split; [exact D|discriminate]]).
    - apply simb_bind with (n' := S n); [apply sim_peek| |apply K; discriminate].
      intros p t L a E. destruct (peek_tape p t a E) as [-> _]. exact L.
  Qed.
  Lemma simb_consume {B} n (k1 : nat * token -> P R B) k2 : (forall a, simb n (k1 a) (k2 a)) -> simb (S n) (pbind R (consume R T) k1) (pbind tape (consume tape tape_source) k2).
  Proof.
    intros K. apply simb_bind with (n' := n); [apply sim_consume| |exact K].
    intros p t L a E. destruct (consume_tape p t a E) as [-> N]. cbn [fst]. destruct (fst t); [congruence|]. cbn in *. lia.
  Qed.
  Lemma simb_pop {B} n (k1 : entry -> P R B) k2 : (forall a, simb n (k1 a) (k2 a)) -> simb (S n) (pbind R (pop R T) k1) (pbind tape (pop tape tape_source) k2).
  Proof.
    intros K. apply simb_bind with (n' := n); [apply sim_pop| |exact K].
    intros p t L a E. destruct (pop_tape p t a E) as [-> N]. cbn [fst]. destruct (fst t); [congruence|]. cbn in *. lia.
  Qed.
  Lemma sim_directives n : forall n1 n2 e seen d, n < n1 -> n < n2 ->
    simb n (scan_directives R T n1 e seen d) (scan_directives tape tape_source n2 e seen d).
  Proof.
    induction n as [|n IH]; intros n1 n2 e seen d L1 L2; (destruct n1 as [|n1]; [lia|]; destruct n2 as [|n2]; [lia|]); cbn [scan_directives];
      apply simb_peek; intros NZ [x t]; [congruence|].
    destruct t; try (apply simb_sim; apply sim_ret).
    - destruct seen; [apply simb_sim; apply sim_fail|]. apply simb_consume. intros [m tk]. destruct tk; try (apply simb_sim; apply sim_fail). apply IH; lia.
    - apply simb_consume. intros [m tk]. destruct tk; try (apply simb_sim; apply sim_fail). destruct (tag_get _ _); [apply simb_sim; apply sim_fail|]. apply IH; lia.
  Qed.
  Lemma sim_ends n : forall n1 n2, n < n1 -> n < n2 -> simb n (skip_document_ends R T n1) (skip_document_ends tape tape_source n2).
  Proof.
    induction n as [|n IH]; intros n1 n2 L1 L2; (destruct n1 as [|n1]; [lia|]; destruct n2 as [|n2]; [lia|]); cbn [skip_document_ends];
      apply simb_peek; intros NZ [x t]; [congruence|].
    destruct t; try (apply simb_sim; apply sim_ret). apply simb_pop. intros _. apply IH; lia.
  Qed.
  Lemma sim_budget {B} (k1 : nat -> P R B) k2 : (forall n n1 n2, n < n1 -> n < n2 -> simb n (k1 n1) (k2 n2)) ->
    sim (pbind R (budget R T) k1) (pbind tape (budget tape tape_source) k2).
  Proof.
    intros K p r t H. unfold pbind, budget. cbn [ts_budget tape_source]. apply (K (List.length (fst t))); [apply budget_sim in H; lia|lia|exact H|lia].
  Qed.
  Lemma simb_then {A B} n m1 m2 (k1 : A -> P R B) k2 : simb n m1 m2 -> (forall a, sim (k1 a) (k2 a)) -> simb n (pbind R m1 k1) (pbind tape m2 k2).
  Proof.
    intros M K p r t H L. unfold pbind. destruct (M p r t H L) as (E & TT & D).
    destruct (m1 p r) as [[p1 r1] x1], (m2 p t) as [[p2 t2] x2]. cbn [fst snd] in *. subst x2.
    destruct x1 as [a|e| |].
    - destruct D as [[-> D]|[_ D]]; [|destruct (D a eq_refl)].
      destruct (K a p2 r1 t2 D) as (E' & T' & D'). split; [exact E'|]. split; [congruence|].
      destruct D' as [D'|[BR D']]; [left; exact D'|right]. split; [|exact D']. unfold broken in *. rewrite <- TT. exact BR.
    - split; [reflexivity|]. split; [exact TT|]. destruct D as [D|[D _]]; [left; exact D|right; split; [exact D|discriminate]].
    - split; [reflexivity|]. split; [exact TT|]. destruct D as [D|[D _]]; [left; exact D|right; split; [exact D|discriminate]].
    - split; [reflexivity|]. split; [exact TT|]. destruct D as [D|[D _]]; [left; exact D|right; split; [exact D|discriminate]].
  Qed.
  Lemma sim_document_directives : sim (scan_document_directives R T) (scan_document_directives tape tape_source).
  Proof.
    unfold scan_document_directives. apply sim_bind; [apply sim_peek|]. intros [s m]. apply sim_budget. intros n n1 n2 L1 L2.
    apply simb_then; [apply sim_directives; assumption|]. intros [e d]. apply sim_ret.
  Qed.
  Lemma sim_skip : sim (pbind R (budget R T) (fun n => skip_document_ends R T n)) (pbind tape (budget tape tape_source) (fun n => skip_document_ends tape tape_source n)).
  Proof. apply sim_budget. intros n n1 n2 L1 L2. apply sim_ends; assumption. Qed.
  Lemma sim_activate d : sim (activate R d) (activate tape d).
  Proof. unfold activate. sims. Qed.

  Ltac all := repeat (cbv beta zeta; lazymatch goal with
    | |- sim (pbind _ (budget _ _) _) _ => apply sim_skip
    | |- sim (scan_document_directives _ _) _ => apply sim_document_directives
    | |- sim (activate _ _) _ => apply sim_activate
    | |- sim (peek _ _) _ => apply sim_peek
    | |- sim (peek_opt _ _) _ => apply sim_peek_opt
    | |- sim (pop _ _) _ => apply sim_pop
    | |- sim (consume _ _) _ => apply sim_consume
    | |- sim (consume_scalar _ _) _ => apply sim_consume_scalar
    | |- sim (debug_assert _ _ _) _ => apply sim_assert
    | |- sim (deliver _ _ _ _) _ => apply sim_deliver
    | |- sim (empty_scalar _ _ _) _ => apply sim_empty
    | |- sim (pret _ _) _ => apply sim_ret
    | |- sim (pfail _ _) _ => apply sim_fail
    | |- sim (pupd _ _) _ => apply sim_upd
    | |- sim (checked _ _ _ _ _ _) _ => apply sim_checked
    | |- sim (fetch_anchor _ _) _ => assumption
    | |- sim (fetch_tag _ _) _ => assumption
    | |- sim (node_empty _ _ _ _) _ => assumption
    | |- sim (parse_node _ _ _ _) _ => match goal with H : forall b k, sim (parse_node _ _ b k) _ |- _ => apply H end
    | |- sim (pbind _ _ _) _ => apply sim_bind; [|intro]
    | |- sim (fun p r => (p, r, Ok _)) _ => apply sim_get
    | |- sim (match ?x with _ => _ end) _ => destruct x
    | |- sim (let '_ := ?x in _) _ => destruct x
    | |- sim (if ?x then _ else _) _ => destruct x
    end).

  Lemma sim_stream_start : sim (Parser.stream_start R T) (Parser.stream_start tape tape_source).
  Proof. unfold Parser.stream_start. all. Qed.
  Lemma sim_stream_end : sim (Parser.stream_end R T) (Parser.stream_end tape tape_source).
  Proof. unfold Parser.stream_end. all. Qed.
  Lemma sim_document_start i f : sim (document_start R T i f) (document_start tape tape_source i f).
  Proof. unfold document_start. all. Qed.
  Lemma sim_document_end : sim (document_end R T) (document_end tape tape_source).
  Proof. unfold document_end. all. Qed.
  Lemma sim_anchor : sim (fetch_anchor R T) (fetch_anchor tape tape_source).
  Proof. unfold fetch_anchor. all. Qed.
  Lemma sim_tag : sim (fetch_tag R T) (fetch_tag tape tape_source).
  Proof. unfold fetch_tag. all. Qed.
  Lemma sim_properties s t : sim (properties R T s t) (properties tape tape_source s t).
  Proof. unfold properties. pose proof sim_anchor. pose proof sim_tag. all. Qed.
  Lemma sim_node_empty s e n : sim (node_empty R s e n) (node_empty tape s e n).
  Proof. unfold node_empty. all. Qed.
  Lemma sim_variant b s e n t : sim (node_variant R T b s e n t) (node_variant tape tape_source b s e n t).
  Proof. unfold node_variant. pose proof (sim_node_empty s e n). destruct t; all. Qed.
  Lemma sim_content b k s t : sim (node_content R T b k s t) (node_content tape tape_source b k s t).
  Proof. unfold node_content. apply sim_bind; [apply sim_properties|]. intros [[s' a] g]. apply sim_bind; [apply sim_peek|]. intros [e t']. apply sim_variant. Qed.
  Lemma sim_node b k : sim (parse_node R T b k) (parse_node tape tape_source b k).
  Proof. unfold parse_node. apply sim_bind; [apply sim_peek|]. intros [s t]. destruct t; try apply sim_content. all. Qed.
  Lemma sim_transition : sim (state_transition R T debug) (state_transition tape tape_source debug).
  Proof.
    pose proof sim_node as N. unfold state_transition. apply sim_bind; [apply sim_get|]. intros s.
    destruct s; first [apply sim_stream_start | apply sim_stream_end | apply sim_document_start | apply sim_document_end | apply sim_node | idtac].
    - unfold explicit_document_content. apply sim_bind; [apply sim_peek|]. intros [m t]. destruct t; all.
    - unfold block_sequence_entry. all.
    - unfold block_mapping_key. all.
    - unfold block_mapping_value. all.
    - unfold flow_sequence_entry, fetch_end. all.
    - unfold flow_sequence_entry_mapping_key. all.
    - unfold flow_sequence_entry_mapping_value. all.
    - unfold flow_sequence_entry_mapping_end. all.
    - unfold flow_mapping_key, fetch_end. all.
    - unfold flow_mapping_value. all.
  Qed.

  Lemma sim_loop n : sim (event_loop R T debug n) (event_loop tape tape_source debug n).
  Proof.
    induction n as [|n IH]; intros p r t H; cbn [event_loop]; destruct (ps_done p).
    1-3: split; [reflexivity|]; split; [reflexivity|]; left; auto.
    destruct (sim_transition p r t H) as (E & TT & D).
    destruct (state_transition R T debug p r) as [[p1 r1] x1], (state_transition tape tape_source debug p t) as [[p2 t2] x2].
    cbn [fst snd] in E, TT, D. subst x2.
    destruct x1 as [[e|]|e| |]; try (split; [reflexivity|]; split; [exact TT|]; exact D).
    destruct D as [[-> D]|[_ D]]; [|destruct (D None eq_refl)].
    destruct (IH p2 r1 t2 D) as (E' & T' & D'). split; [exact E'|]. split; [congruence|].
    destruct D' as [D'|[BR D']]; [left; exact D'|right]. split; [|exact D']. unfold broken in *. rewrite <- TT. exact BR.
  Qed.

  Lemma run_sim n : forall p r t, Rel r t ->
    until_failure (run_events T debug n p r) = until_failure (run_events tape_source debug n p t) /\
    (snd t = Ok tt -> run_events T debug n p r = run_events tape_source debug n p t).
  Proof.
    induction n as [|n IH]; intros p r t H; cbn [run_events]; [split; reflexivity|].
    destruct (sim_loop 3 p r t H) as (E & TT & D). unfold next_event.
    destruct (event_loop R T debug 3 p r) as [[p1 r1] x1], (event_loop tape tape_source debug 3 p t) as [[p2 t2] x2].
    cbn [fst snd] in E, TT, D. subst x2.
    assert (K : (forall a, x1 <> Ok a) \/ p1 = p2 /\ Rel r1 t2).
    { destruct D as [[-> D]|[_ D]]; [right; auto|left; exact D]. }
    split.
    - destruct x1 as [[e|]|e| |]; cbn [until_failure]; try reflexivity.
      destruct K as [K|[-> K]]; [destruct (K (Some e) eq_refl)|]. f_equal. apply IH, K.
    - intros X. f_equal. destruct D as [[-> D]|[B _]]; [|destruct (B tt X)].
      apply IH; [exact D|congruence].
  Qed.
End Sim.

(** ** Lists are tapes that end *)
Lemma list_tape debug n p l :
  run_events list_source debug n p l = run_events tape_source debug n p (l, Ok tt).
Proof.
  refine (proj2 (run_sim (list entry) list_source debug (fun l t => t = (l, Ok tt)) _ _ _ n p l (l, Ok tt) eq_refl) eq_refl).
  - intros r t ->. destruct r; split; [reflexivity|left; reflexivity|reflexivity|left; reflexivity].
  - intros r t ->. destruct r; split; [reflexivity|left; reflexivity|reflexivity|left; reflexivity].
  - intros r t ->. cbn. auto.
Qed.
