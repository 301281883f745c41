(** The parser always answers: none of its loops runs out of fuel. *)
From Verif Require Export TapeStream ParserLang ParserEffects.
From Verif Require Import SpecUtf8.
From Coq Require Import Lia.
Open Scope nat_scope.

(** ** The tokens of a tape bound the loops over tokens *)
Definition sure {A} (m : P tape A) : Prop :=
  forall p t, snd t <> Fuel -> snd (m p t) <> Fuel /\ snd (snd (fst (m p t))) = snd t.
Definition sureb {A} (n : nat) (m : P tape A) : Prop :=
  forall p t, snd t <> Fuel -> List.length (fst t) <= n -> snd (m p t) <> Fuel /\ snd (snd (fst (m p t))) = snd t.

Lemma sure_ret {A} (a : A) : sure (pret tape a).
Proof. intros p t F. split; [discriminate|reflexivity]. Qed.
Lemma sure_fail {A} (x : pres A) : x <> Fuel -> sure (pfail tape x).
Proof. intros X p t F. split; [exact X|reflexivity]. Qed.
Lemma sure_upd f : sure (pupd tape f).
Proof. intros p t F. split; [discriminate|reflexivity]. Qed.
Lemma sure_get {A} (f : parser -> A) : sure (fun p r => (p, r, Ok (f p))).
Proof. intros p t F. split; [discriminate|reflexivity]. Qed.
Lemma sure_bind {A B} (m : P tape A) (k : A -> P tape B) : sure m -> (forall a, sure (k a)) -> sure (pbind tape m k).
Proof.
  intros M K p t F. unfold pbind. destruct (M p t F) as [X Y]. destruct (m p t) as [[p1 t1] [a|e| |]]; cbn [fst snd] in *.
  - destruct (K a p1 t1) as [X' Y']; [intros Z; apply F; rewrite <- Y; exact Z|]. split; [exact X'|exact (eq_trans Y' Y)].
  - split; [discriminate|exact Y].
  - split; [discriminate|exact Y].
  - destruct (X eq_refl).
Qed.
Lemma sure_peek_opt : sure (peek_opt tape tape_source).
Proof. intros p [[|e l] x] F; cbn in *; split; try reflexivity; destruct x; try discriminate; congruence. Qed.
Lemma sure_take : sure (fun p t => let (t', x) := ts_pop tape_source t in (p, t', map_err parse_error_of_reader x)).
Proof. intros p [[|e l] x] F; cbn in *; split; try reflexivity; destruct x; try discriminate; congruence. Qed.
Lemma sure_checked s e n b mk : sure (checked tape s e n b mk).
Proof.
  intros p t F. unfold checked, validate_tag.
  destruct (n_tag n) as [[h w]|]; [destruct (b && _); [|destruct (tag_get _ _)]|]; (split; [discriminate|reflexivity]).
Qed.

Ltac sures := repeat (cbv beta zeta; lazymatch goal with
  | |- sure (peek_opt _ _) => apply sure_peek_opt
  | |- sure (pret _ _) => apply sure_ret
  | |- sure (pfail _ _) => apply sure_fail; discriminate
  | |- sure (pupd _ _) => apply sure_upd
  | |- sure (checked _ _ _ _ _ _) => apply sure_checked
  | |- sure (pbind _ _ _) => apply sure_bind; [|intro]
  | |- sure (fun p r => (p, r, Ok _)) => apply sure_get
  | |- sure (fun p r => let (_, _) := ts_pop _ _ in _) => apply sure_take
  | |- sure (match ?x with _ => _ end) => destruct x
  | |- sure (let '_ := ?x in _) => destruct x
  | |- sure (if ?x then _ else _) => destruct x
  end).
Lemma sure_peek : sure (peek tape tape_source).
Proof. unfold peek. sures. Qed.
Lemma sure_pop : sure (pop tape tape_source).
Proof. unfold pop. apply sure_bind; [apply sure_take|intro a]. sures. Qed.
Lemma sure_consume : sure (consume tape tape_source).
Proof. unfold consume. apply sure_bind; [apply sure_pop|intro a]. sures. Qed.
Lemma sure_consume_scalar : sure (consume_scalar tape tape_source).
Proof. unfold consume_scalar. apply sure_bind; [apply sure_pop|intro a]. sures. Qed.
Lemma sure_assert debug b : sure (debug_assert tape debug b).
Proof. unfold debug_assert. sures. Qed.

Lemma sureb_sure {A} n (m : P tape A) : sure m -> sureb n m.
Proof. intros S p t F _. apply S, F. Qed.
Lemma sureb_bind {A B} n n' (m : P tape A) (k : A -> P tape B) : sure m ->
  (forall p t, List.length (fst t) <= n -> forall a, snd (m p t) = Ok a -> List.length (fst (snd (fst (m p t)))) <= n') ->
  (forall a, sureb n' (k a)) -> sureb n (pbind tape m k).
Proof.
  intros M N K p t F L. unfold pbind. destruct (M p t F) as [X Y]. specialize (N p t L).
  destruct (m p t) as [[p1 t1] [a|e| |]]; cbn [fst snd] in *.
  - destruct (K a p1 t1) as [X' Y']; [intros Z; apply F; rewrite <- Y; exact Z|apply (N a eq_refl)|]. split; [exact X'|exact (eq_trans Y' Y)].
  - split; [discriminate|exact Y].
  - split; [discriminate|exact Y].
  - destruct (X eq_refl).
Qed.
Lemma sureb_peek {B} n (k : nat * marker -> P tape B) : (n <> 0 -> forall a, sureb n (k a)) ->
  sureb n (pbind tape (peek tape tape_source) k).
Proof.
  intros K. destruct n as [|n].
  - intros p [[|e l] x] F L; cbn in *; [|lia]. destruct x as [[]|e| |]; cbn; (split; [discriminate||congruence|reflexivity]).
  - apply sureb_bind with (n' := S n); [apply sure_peek| |apply K; discriminate].
    intros p t L a E. destruct (peek_tape p t a E) as [-> _]. exact L.
Qed.
Lemma sureb_consume {B} n (k : nat * token -> P tape B) : (forall a, sureb n (k a)) -> sureb (S n) (pbind tape (consume tape tape_source) k).
Proof.
  intros K. apply sureb_bind with (n' := n); [apply sure_consume| |exact K].
  intros p t L a E. destruct (consume_tape p t a E) as [-> N]. cbn [fst]. destruct (fst t); [congruence|]. cbn in *. lia.
Qed.
Lemma sureb_pop {B} n (k : entry -> P tape B) : (forall a, sureb n (k a)) -> sureb (S n) (pbind tape (pop tape tape_source) k).
Proof.
  intros K. apply sureb_bind with (n' := n); [apply sure_pop| |exact K].
  intros p t L a E. destruct (pop_tape p t a E) as [-> N]. cbn [fst]. destruct (fst t); [congruence|]. cbn in *. lia.
Qed.
Lemma sure_directives n : forall n1 e seen d, n < n1 -> sureb n (scan_directives tape tape_source n1 e seen d).
Proof.
  induction n as [|n IH]; intros n1 e seen d L1; (destruct n1 as [|n1]; [lia|]); cbn [scan_directives];
    apply sureb_peek; intros NZ [x t]; [congruence|].
  destruct t; try (apply sureb_sure; apply sure_ret).
  - destruct seen; [apply sureb_sure; sures|]. apply sureb_consume. intros [m tk]. destruct tk; try (apply sureb_sure; sures; fail). apply IH; lia.
  - apply sureb_consume. intros [m tk]. destruct tk; try (apply sureb_sure; sures; fail). destruct (tag_get _ _); [apply sureb_sure; sures|]. apply IH; lia.
Qed.
Lemma sure_ends n : forall n1, n < n1 -> sureb n (skip_document_ends tape tape_source n1).
Proof.
  induction n as [|n IH]; intros n1 L1; (destruct n1 as [|n1]; [lia|]); cbn [skip_document_ends];
    apply sureb_peek; intros NZ [x t]; [congruence|].
  destruct t; try (apply sureb_sure; apply sure_ret). apply sureb_pop. intros _. apply IH; lia.
Qed.
Lemma sure_budget {B} (k : nat -> P tape B) : (forall n n1, n < n1 -> sureb n (k n1)) ->
  sure (pbind tape (budget tape tape_source) k).
Proof. intros K p t F. unfold pbind, budget. cbn [ts_budget tape_source]. apply (K (List.length (fst t))); [apply Nat.lt_succ_diag_r|exact F|apply Nat.le_refl]. Qed.
Lemma sureb_then {A B} n (m : P tape A) (k : A -> P tape B) : sureb n m -> (forall a, sure (k a)) -> sureb n (pbind tape m k).
Proof.
  intros M K p t F L. unfold pbind. destruct (M p t F L) as [X Y]. destruct (m p t) as [[p1 t1] [a|e| |]]; cbn [fst snd] in *.
  - destruct (K a p1 t1) as [X' Y']; [intros Z; apply F; rewrite <- Y; exact Z|]. split; [exact X'|exact (eq_trans Y' Y)].
  - split; [discriminate|exact Y].
  - split; [discriminate|exact Y].
  - destruct (X eq_refl).
Qed.
Lemma sure_document_directives : sure (scan_document_directives tape tape_source).
Proof.
  unfold scan_document_directives. apply sure_bind; [apply sure_peek|]. intros [s m]. apply sure_budget. intros n n1 L1.
  apply sureb_then; [apply sure_directives; assumption|]. intros [e d]. apply sure_ret.
Qed.
Lemma sure_skip : sure (pbind tape (budget tape tape_source) (fun n => skip_document_ends tape tape_source n)).
Proof. apply sure_budget. intros n n1 L1. apply sure_ends; assumption. Qed.

Ltac surely := repeat (cbv beta zeta; lazymatch goal with
  | |- sure (pbind _ (budget _ _) _) => apply sure_skip
  | |- sure (scan_document_directives _ _) => apply sure_document_directives
  | |- sure (activate _ _) => apply sure_upd
  | |- sure (peek _ _) => apply sure_peek
  | |- sure (peek_opt _ _) => apply sure_peek_opt
  | |- sure (pop _ _) => apply sure_pop
  | |- sure (consume _ _) => apply sure_consume
  | |- sure (consume_scalar _ _) => apply sure_consume_scalar
  | |- sure (debug_assert _ _ _) => apply sure_assert
  | |- sure (deliver _ _ _ _) => apply sure_ret
  | |- sure (empty_scalar _ _ _) => apply sure_ret
  | |- sure (pret _ _) => apply sure_ret
  | |- sure (pfail _ _) => apply sure_fail; discriminate
  | |- sure (pupd _ _) => apply sure_upd
  | |- sure (checked _ _ _ _ _ _) => apply sure_checked
  | |- sure (fetch_anchor _ _) => assumption
  | |- sure (fetch_tag _ _) => assumption
  | |- sure (node_empty _ _ _ _) => assumption
  | |- sure (parse_node _ _ _ _) => match goal with H : forall b k, sure (parse_node _ _ b k) |- _ => apply H end
  | |- sure (pbind _ _ _) => apply sure_bind; [|intro]
  | |- sure (fun p r => (p, r, Ok _)) => apply sure_get
  | |- sure (match ?x with _ => _ end) => destruct x
  | |- sure (let '_ := ?x in _) => destruct x
  | |- sure (if ?x then _ else _) => destruct x
  end).

Lemma sure_anchor : sure (fetch_anchor tape tape_source).
Proof. unfold fetch_anchor. surely. Qed.
Lemma sure_tag : sure (fetch_tag tape tape_source).
Proof. unfold fetch_tag. surely. Qed.
Lemma sure_properties s t : sure (properties tape tape_source s t).
Proof. unfold properties. pose proof sure_anchor. pose proof sure_tag. surely. Qed.
Lemma sure_node_empty s e n : sure (node_empty tape s e n).
Proof. unfold node_empty. surely. Qed.
Lemma sure_variant b s e n t : sure (node_variant tape tape_source b s e n t).
Proof. unfold node_variant. pose proof (sure_node_empty s e n). destruct t; surely. Qed.
Lemma sure_content b k s t : sure (node_content tape tape_source b k s t).
Proof. unfold node_content. apply sure_bind; [apply sure_properties|]. intros [[s' a] g]. apply sure_bind; [apply sure_peek|]. intros [e t']. apply sure_variant. Qed.
Lemma sure_node b k : sure (parse_node tape tape_source b k).
Proof. unfold parse_node. apply sure_bind; [apply sure_peek|]. intros [s t]. destruct t; try apply sure_content. surely. Qed.
Lemma sure_transition debug : sure (state_transition tape tape_source debug).
Proof.
  pose proof sure_node as N. unfold state_transition. apply sure_bind; [apply sure_get|]. intros s.
  destruct s; first [apply sure_node | idtac].
  - unfold Parser.stream_start. surely.
  - unfold Parser.stream_end. surely.
  - unfold document_start. surely.
  - unfold explicit_document_content. apply sure_bind; [apply sure_peek|]. intros [m t]. destruct t; surely.
  - unfold document_end. surely.
  - unfold block_sequence_entry. surely.
  - unfold block_mapping_key. surely.
  - unfold block_mapping_value. surely.
  - unfold flow_sequence_entry, fetch_end. surely.
  - unfold flow_sequence_entry_mapping_key. surely.
  - unfold flow_sequence_entry_mapping_value. surely.
  - unfold flow_sequence_entry_mapping_end. surely.
  - unfold flow_mapping_key, fetch_end. surely.
  - unfold flow_mapping_value. surely.
Qed.

(** ** A transition that gives no event leads to one that does *)
Definition loud (m : P tape (option event)) : Prop := forall p t, snd (m p t) <> Ok None.
Lemma loud_bind {A} (m : P tape A) k : (forall a, loud (k a)) -> loud (pbind tape m k).
Proof. intros K p t. unfold pbind. destruct (m p t) as [[p1 t1] [a|e| |]]; [apply K|discriminate..]. Qed.
Lemma loud_fail x : x <> Ok None -> loud (pfail tape x).
Proof. intros X p t. exact X. Qed.
Lemma loud_deliver s e d : loud (deliver tape s e d).
Proof. intros p t. discriminate. Qed.
Lemma loud_empty m k : loud (empty_scalar tape m k).
Proof. intros p t. discriminate. Qed.
Lemma loud_checked s e n b mk : loud (checked tape s e n b mk).
Proof. intros p t. unfold checked. destruct (validate_tag _ n b); discriminate. Qed.
Ltac louds := repeat (cbv beta zeta; lazymatch goal with
  | |- loud (deliver _ _ _ _) => apply loud_deliver
  | |- loud (empty_scalar _ _ _) => apply loud_empty
  | |- loud (pfail _ _) => apply loud_fail; discriminate
  | |- loud (checked _ _ _ _ _ _) => apply loud_checked
  | |- loud (node_empty _ _ _ _) => assumption
  | |- loud (parse_node _ _ _ _) => match goal with H : forall b k, loud (parse_node _ _ b k) |- _ => apply H end
  | |- loud (pbind _ _ _) => apply loud_bind; intro
  | |- loud (match ?x with _ => _ end) => destruct x
  | |- loud (let '_ := ?x in _) => destruct x
  | |- loud (if ?x then _ else _) => destruct x
  end).
Lemma loud_node_empty s e n : loud (node_empty tape s e n).
Proof. unfold node_empty. louds. Qed.
Lemma loud_variant b s e n t : loud (node_variant tape tape_source b s e n t).
Proof. unfold node_variant. pose proof (loud_node_empty s e n). destruct t; louds. Qed.
Lemma loud_content b k s t : loud (node_content tape tape_source b k s t).
Proof. unfold node_content. apply loud_bind. intros [[s' a] g]. apply loud_bind. intros [e t']. apply loud_variant. Qed.
Lemma loud_node b k : loud (parse_node tape tape_source b k).
Proof. unfold parse_node. apply loud_bind. intros [s t]. destruct t; try apply loud_content. louds. Qed.

Definition silent_step (p p' : parser) : Prop :=
  ps_top p' = StStreamEnd \/ ps_top p = StDocumentContent /\ p' = st_pop p.
Definition answering (s : state) : Prop :=
  match s with StDocumentStart _ _ | StDocumentContent => False | _ => True end.

Lemma loud_transition debug p t p' t' : ps_done p = false ->
  state_transition tape tape_source debug p t = (p', t', Ok None) -> silent_step p p' /\ ~ answering (ps_top p).
Proof.
  intros D. unfold state_transition, pbind at 1.
  assert (A : forall (m : P tape (option event)) (Q : parser -> Prop), always tape m p (fun x p' => x = Ok None -> Q p') ->
    forall p' t', m p t = (p', t', Ok None) -> Q p').
  { intros m Q M p2 t2 E. apply (M _ _ _ _ E eq_refl). }
  assert (L : forall m : P tape (option event), loud m -> m p t = (p', t', Ok None) -> silent_step p p' /\ ~ answering (ps_top p)).
  { intros m L E. specialize (L p t). rewrite E in L. destruct (L eq_refl). }
  pose proof loud_node as N.
  destruct (ps_top p) eqn:S; try (apply L; apply loud_node).
  - intros E. exfalso. clear L. revert p' t' E. apply (A _ (fun _ => False)). unfold Parser.stream_start. repeat first [pstep | pbranch]; discriminate.
  - intros E. exfalso. revert E. unfold Parser.stream_end. unfold pbind at 1. rewrite D. clear L. revert p' t'. apply (A _ (fun _ => False)). repeat first [pstep | pbranch]; discriminate.
  - intros E. split; [left|tauto]. clear L. revert p' t' E. apply (A _ (fun p' => ps_top p' = StStreamEnd)). unfold document_start.
    repeat first [pstep | pbranch]; first [discriminate | reflexivity].
  - intros E. split; [right|tauto]. split; [exact S|]. clear L. revert p' t' E. apply (A _ (fun p' => p' = st_pop p)). unfold explicit_document_content.
    repeat first [pstep | pbranch]; try discriminate; try reflexivity. 
    all: intros r p' r' x E -> ; specialize (N true Root p r); rewrite E in N; destruct (N eq_refl).
  - apply L. unfold document_end. louds.
  - apply L. unfold block_sequence_entry. louds.
  - apply L. unfold block_mapping_key. louds.
  - apply L. unfold block_mapping_value. louds.
  - apply L. unfold flow_sequence_entry, fetch_end. louds.
  - apply L. unfold flow_sequence_entry_mapping_key. louds.
  - apply L. unfold flow_sequence_entry_mapping_value. louds.
  - apply L. unfold flow_sequence_entry_mapping_end. louds.
  - apply L. unfold flow_mapping_key, fetch_end. louds.
  - apply L. unfold flow_mapping_value. louds.
Qed.

Lemma loop_sure debug p t : shape p -> snd t <> Fuel ->
  snd (event_loop tape tape_source debug 3 p t) <> Fuel /\
  snd (snd (fst (event_loop tape tape_source debug 3 p t))) = snd t.
Proof.
  (** from an answering state one transition is enough *)
  assert (ONE : forall n p t, answering (ps_top p) -> snd t <> Fuel ->
    snd (event_loop tape tape_source debug (S n) p t) <> Fuel /\
    snd (snd (fst (event_loop tape tape_source debug (S n) p t))) = snd t).
  { intros n q u A F. cbn [event_loop]. destruct (ps_done q) eqn:D; [split; [discriminate|reflexivity]|].
    destruct (sure_transition debug q u F) as [X Y]. pose proof (loud_transition debug q u) as N.
    destruct (state_transition tape tape_source debug q u) as [[q' u'] [[e|]|e| |]]; cbn [fst snd] in *;
      try (split; [discriminate|exact Y]).
    - destruct (N q' u' D eq_refl) as [_ NA]. destruct (NA A).
    - destruct (X eq_refl). }
  intros SH F. cbn [event_loop]. destruct (ps_done p) eqn:D; [split; [discriminate|reflexivity]|].
  destruct (sure_transition debug p t F) as [X Y]. pose proof (loud_transition debug p t) as N.
  pose proof (fun x p' t' => transition_ok tape tape_source debug p SH D t p' t' x) as OK.
  destruct (state_transition tape tape_source debug p t) as [[q u] [[e|]|e| |]]; cbn [fst snd] in *;
    try (split; [discriminate|exact Y]); [|destruct (X eq_refl)].
  destruct (N q u D eq_refl) as [SI NA]. destruct (OK _ q u eq_refl) as [SQ _].
  assert (FU : snd u <> Fuel) by (intros Z; apply F; rewrite <- Y; exact Z).
  assert (A : answering (ps_top q)).
  { destruct SI as [SI|[TP ->]]; [rewrite SI; exact Logic.I|].
    destruct SH as [SH _]. rewrite TP in SH. unfold shape_of in SH. cbn in SH.
    destruct p as [s [|a st] ds dn]; cbn in *; [destruct SH|]. subst s.
    destruct st as [|b st]; cbn in *; [subst a; exact Logic.I|].
    destruct SH as (_ & SA & _). destruct a; try exact Logic.I; discriminate. }
  destruct (ONE 1 q u A FU) as [X' Y']. split; [exact X'|exact (eq_trans Y' Y)].
Qed.

Lemma run_sure debug n : forall p t, shape p -> snd t <> Fuel -> ~ In Fuel (run_events tape_source debug n p t).
Proof.
  induction n as [|n IH]; intros p t SH F; cbn [run_events]; [tauto|].
  destruct (loop_sure debug p t SH F) as [X Y].
  pose proof (event_loop_ok tape tape_source debug 3 p SH t) as OK. unfold next_event.
  destruct (event_loop tape tape_source debug 3 p t) as [[p' t'] x]. cbn [fst snd] in *.
  destruct (OK p' t' x eq_refl) as [[SH' _] _].
  intros [E|E]; [exact (X E)|]. apply (IH p' t'); [exact SH'|intros Z; apply F; rewrite <- Y; exact Z|exact E].
Qed.

Lemma until_in {A} (l : list (pres (option A))) x : In x (until_failure l) -> In x l.
Proof.
  induction l as [|[[e|]|e| |] l IH]; cbn; [tauto|..]; intros [<-|H]; auto; try destruct H.
Qed.
Lemma text_answers t lazy debug n : well_formed t ->
  ~ In Fuel (until_failure (run_events peek_source debug n parser0 (snd (events_new (Borrow t) lazy)))).
Proof.
  intros W. destruct (text_events t lazy debug W) as (l & x & _ & F & E & _). rewrite (E n).
  intros I. apply until_in in I. revert I. apply run_sure; [apply shape0|exact F].
Qed.
