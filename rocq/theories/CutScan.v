(** Cut texts: one round of the scanner. *)
From Verif Require Import QuotedFacts FlowFacts Contract.
From Verif Require LazyFacts SpecOwned.
From Verif Require Import LexFacts.
From Verif Require Import Scanner CutFacts CutLeaf CutScalar CutBlock.
From Coq Require Import Lia ZifyBool ZifyN ZifyNat.
Open Scope nat_scope.

(** ** Deferred block scalars with and without the option to ask for more text *)
Notation settled := SpecOwned.settled.
Definition tseal (lz : bool) (x : maybe_token) : maybe_token :=
  if lz then match x with Lazy (DBlock o t st i f) => Lazy (DBlock (no_extend o) t st i f) | _ => x end else x.
Definition eseal (lz : bool) (e : entry) : entry := if lz then settled e else e.
Definition qseal (lz : bool) (q : tokens) : tokens :=
  if lz then mkQueue (map (fun p => (fst p, settled (snd p))) (q_heap q)) (q_inc q) else q.
(** Tokens this makes no difference to. *)
Definition firm (x : maybe_token) : Prop := match x with Lazy (DBlock o _ _ _ _) => no_extend o = o | _ => True end.

Lemma eseal_entry lz x r : eseal lz (mkEntry x r) = mkEntry (tseal lz x) r.
Proof. destruct lz; [|reflexivity]. destruct x as [?|[]]; reflexivity. Qed.
Lemma firm_tseal lz x : firm x -> tseal lz x = x.
Proof. destruct lz; [|reflexivity]. destruct x as [?|[]]; cbn; try reflexivity. intros ->. reflexivity. Qed.
Lemma qseal_push lz q e : qseal lz (q_push q e) = q_push (qseal lz q) (eseal lz e).
Proof. destruct lz; [|reflexivity]. unfold qseal, q_push, eseal. cbn [q_heap q_inc]. rewrite map_app. reflexivity. Qed.
Lemma qseal_len lz q : q_len (qseal lz q) = q_len q.
Proof. destruct lz; [|reflexivity]. unfold q_len, qseal. cbn. apply map_length. Qed.
Lemma settled_twice e : settled (settled e) = settled e.
Proof. destruct e as [[?|[]] r]; reflexivity. Qed.
Lemma qseal_twice lz q : qseal lz (qseal lz q) = qseal lz q.
Proof.
  destruct lz; [|reflexivity]. unfold qseal. cbn [q_heap q_inc]. f_equal. rewrite map_map. apply map_ext.
  intros [n e]. cbn [fst snd]. rewrite settled_twice. reflexivity.
Qed.
Lemma settled_cmp e f : entry_cmp (settled e) (settled f) = entry_cmp e f.
Proof. destruct e as [[?|[]] r], f as [[?|[]] r']; reflexivity. Qed.
Lemma extract_seal : forall l x, extract entry entry_cmp (fst x, settled (snd x)) (map (fun p => (fst p, settled (snd p))) l) =
  let (m, r) := extract entry entry_cmp x l in ((fst m, settled (snd m)), map (fun p => (fst p, settled (snd p))) r).
Proof.
  induction l as [|y l IH]; intros x; cbn [map extract]; [reflexivity|].
  rewrite IH. destruct (extract entry entry_cmp y l) as [m r].
  assert (q_lt entry entry_cmp (fst m, settled (snd m)) (fst x, settled (snd x)) = q_lt entry entry_cmp m x) as ->
    by (unfold q_lt; cbn [fst snd]; rewrite settled_cmp; reflexivity).
  destruct (q_lt entry entry_cmp m x); reflexivity.
Qed.
Lemma qseal_pop lz q : q_pop entry_cmp (qseal lz q) =
  (option_map (eseal lz) (fst (q_pop entry_cmp q)), qseal lz (snd (q_pop entry_cmp q))).
Proof.
  destruct lz; [|cbn; destruct (q_pop entry_cmp q) as [[e|] q']; reflexivity].
  unfold qseal, q_pop. cbn [q_heap q_inc]. destruct (q_heap q) as [|x l] eqn:H; [cbn; rewrite H; reflexivity|].
  cbn [map]. rewrite extract_seal. destruct (extract entry entry_cmp x l) as [m r]. reflexivity.
Qed.

(** ** Methods that do not look at the text and the offset *)
Definition blind {A} (m : M A) : Prop := forall b sc q, exists sc1 q1 x,
  m (mkMs b sc q) = (mkMs b sc1 q1, x) /\
  forall lz b' n, m (mkMs b' (set_offset n sc) (qseal lz q)) = (mkMs b' (set_offset n sc1) (qseal lz q1), x).

Lemma blind_bind {A B} (m : M A) (k : A -> M B) : blind m -> (forall a, blind (k a)) -> blind (mbind m k).
Proof.
  intros H K b sc q. destruct (H b sc q) as (sc1 & q1 & x & E1 & E2). unfold mbind. destruct x as [a|e| |].
  - destruct (K a b sc1 q1) as (sc2 & q2 & y & F1 & F2). exists sc2, q2, y. rewrite E1. split; [exact F1|].
    intros lz b' n. rewrite E2. apply F2.
  - exists sc1, q1, (Err e). rewrite E1. split; [reflexivity|]. intros lz b' n. rewrite E2. reflexivity.
  - exists sc1, q1, Panic. rewrite E1. split; [reflexivity|]. intros lz b' n. rewrite E2. reflexivity.
  - exists sc1, q1, Fuel. rewrite E1. split; [reflexivity|]. intros lz b' n. rewrite E2. reflexivity.
Qed.
Lemma blind_get {A} (k : scanner -> M A) : (forall sc n, k (set_offset n sc) = k sc) ->
  (forall sc, blind (k sc)) -> blind (mbind get_sc k).
Proof.
  intros I H b sc q. destruct (H sc b sc q) as (sc1 & q1 & x & E1 & E2). exists sc1, q1, x.
  split; [exact E1|]. intros lz b' n. unfold mbind, get_sc. cbn [m_sc]. rewrite I. apply E2.
Qed.
Lemma blind_lift {A} (r : sres A) : blind (mlift r).
Proof. intros b sc q. do 3 eexists. split; [reflexivity|]. reflexivity. Qed.
Lemma blind_ret {A} (a : A) : blind (mret a).
Proof. intros b sc q. do 3 eexists. split; [reflexivity|]. reflexivity. Qed.
Lemma blind_upd f : (forall sc n, f (set_offset n sc) = set_offset n (f sc)) -> blind (upd f).
Proof. intros H b sc q. do 3 eexists. split; [reflexivity|]. intros lz b' n. unfold upd. cbn. rewrite H. reflexivity. Qed.
Lemma blind_enqueue tok r : firm tok -> blind (enqueue tok r).
Proof.
  intros F b sc q. do 3 eexists. split; [reflexivity|]. intros lz b' n. unfold enqueue. cbn [m_buf m_sc m_q].
  rewrite qseal_push, eseal_entry, (firm_tseal _ _ F). reflexivity.
Qed.

Ltac blinds :=
  repeat first
    [ apply blind_lift | apply blind_ret | apply blind_enqueue; exact Logic.I
    | apply blind_upd; reflexivity
    | apply blind_get; [reflexivity|intros ?]
    | apply blind_bind; [|intros ?]
    | match goal with |- blind (if ?c then _ else _) => destruct c end
    | match goal with |- blind (match ?c with _ => _ end) => destruct c end ].

Lemma blind_here tok : firm tok -> blind (enqueue_here tok).
Proof. intros F. unfold enqueue_here. apply blind_get; [reflexivity|]. intros sc. apply blind_enqueue, F. Qed.
Lemma blind_ends n k : blind (enqueue_ends n k). Proof. induction n; cbn [enqueue_ends]; blinds; assumption. Qed.
Lemma blind_unroll c : blind (unroll_indent c).
Proof. unfold unroll_indent. blinds. apply blind_ends. Qed.
Lemma blind_roll a b c m : blind (roll_indent a b c m). Proof. unfold roll_indent. cbv zeta. blinds. Qed.
Lemma blind_expire : blind expire_stale_saved_key. Proof. unfold expire_stale_saved_key. blinds. Qed.
Lemma blind_remove : blind remove_saved_key. Proof. unfold remove_saved_key. blinds. Qed.
Lemma blind_save r : blind (save_key r). Proof. unfold save_key. cbv zeta. blinds. Qed.
Lemma blind_add d : blind (add_st d). Proof. unfold add_st. blinds. Qed.
Lemma blind_start : blind fetch_stream_start. Proof. unfold fetch_stream_start. blinds. Qed.

Lemma both (b : bool) : b = true \/ b = false. Proof. destruct b; auto. Qed.
Lemma flow_firm o b st single d n st' : scan_flow_scalar_lazy o b st single = Ok (d, n, st') -> firm (Lazy d).
Proof.
  unfold scan_flow_scalar_lazy. intros H. apply bind_inv in H as (? & _ & H). apply bind_inv in H as (? & _ & H).
  apply bind_inv in H as ([? ?] & _ & H). apply bind_inv in H as (? & _ & H). inversion H; subst. exact Logic.I.
Qed.
Lemma plain_firm o b st i k d n st' : scan_plain_scalar_lazy o b st i k = Ok (d, n, st') -> firm (Lazy d).
Proof.
  unfold scan_plain_scalar_lazy. intros H. apply bind_inv in H as ([? ?] & _ & H). apply bind_inv in H as (? & _ & H).
  inversion H; subst. exact Logic.I.
Qed.
Lemma block_firm o b st i k d n st' : extendable o = false -> scan_block_scalar_lazy o b st i k = Ok (d, n, st') -> firm (Lazy d).
Proof.
  unfold scan_block_scalar_lazy. intros X H. apply bind_inv in H as ([[[? ?] ?] ?] & _ & H). apply bind_inv in H as ([[? ?] ?] & _ & H).
  apply bind_inv in H as ([? ?] & _ & H). apply bind_inv in H as (? & _ & H). inversion H; subst.
  cbn. unfold no_extend. rewrite <- X. destruct o. reflexivity.
Qed.

(** ** Agreement of methods *)
Section Methods.
  Variables (t : str) (n0 : nat) (lz : bool).
  Definition mgrow (s : ms) : ms := mkMs (m_buf s ++ t) (set_offset n0 (m_sc s)) (qseal lz (m_q s)).

  Definition msim {A B} (R : ms -> A -> B -> Prop) (m : M A) (m' : M B) (s : ms) : Prop :=
    match m s with
    | (s1, Ok a) => exists b, m' (mgrow s) = (mgrow s1, Ok b) /\ cut t (m_buf s1) /\ R s1 a b
    | (s1, Err Extend) => True
    | (s1, Err e) => m' (mgrow s) = (mgrow s1, Err e)
    | (s1, Panic) => m' (mgrow s) = (mgrow s1, Panic)
    | (s1, Fuel) => True
    end.

  Lemma msim_bind {A A' B B'} (R : ms -> A -> A' -> Prop) (Q : ms -> B -> B' -> Prop) m m' k k' s :
    msim R m m' s -> (forall s1 a b, cut t (m_buf s1) -> R s1 a b -> msim Q (k a) (k' b) s1) ->
    msim Q (mbind m k) (mbind m' k') s.
  Proof.
    unfold msim, mbind. intros H K. destruct (m s) as [s1 [a|e| |]].
    - destruct H as (b & E & C & HR). specialize (K _ _ _ C HR). rewrite E.
      destruct (k a s1) as [s2 [a2|e2| |]]; exact K.
    - destruct e; try exact Logic.I; rewrite H; reflexivity.
    - rewrite H. reflexivity.
    - exact Logic.I.
  Qed.
  Lemma msim_blind {A} (m : M A) s : blind m -> cut t (m_buf s) ->
    msim (fun s1 a b => a = b /\ m_buf s1 = m_buf s) m m s.
  Proof.
    intros H C. destruct s as [b sc q]. destruct (H b sc q) as (sc1 & q1 & x & E1 & E2).
    unfold msim. rewrite E1. unfold mgrow. cbn [m_buf m_sc m_q]. rewrite E2.
    destruct x as [a|e| |]; [|destruct e; auto|reflexivity|exact Logic.I].
    exists a. cbn in *. auto.
  Qed.
  Lemma msim_lift {A B} (R : A -> B -> Prop) r r' s : sim R r r' -> cut t (m_buf s) ->
    msim (fun s1 a b => s1 = s /\ R a b) (mlift r) (mlift r') s.
  Proof.
    intros H C. unfold msim, mlift. destruct r as [a|e| |].
    - destruct H as [[]|(b & -> & H)]. exists b. auto.
    - destruct e; cbn in H; subst; first [exact Logic.I|reflexivity].
    - cbn in H. subst. reflexivity.
    - exact Logic.I.
  Qed.
  Lemma msim_get_buf {A B} (R : ms -> A -> B -> Prop) k k' s :
    msim R (k (m_buf s)) (k' (m_buf s ++ t)) s -> msim R (mbind get_buf k) (mbind get_buf k') s.
  Proof. intros H. exact H. Qed.
  Lemma msim_get_sc {A B} (R : ms -> A -> B -> Prop) k k' s : (forall sc n, k' (set_offset n sc) = k' sc) ->
    msim R (k (m_sc s)) (k' (m_sc s)) s -> msim R (mbind get_sc k) (mbind get_sc k') s.
  Proof. intros I H. unfold msim, mbind, get_sc in *. cbn [m_sc mgrow]. rewrite I. exact H. Qed.
  Lemma msim_advance s n : cut t (m_buf s) -> n <= List.length (m_buf s) ->
    msim (fun s1 _ _ => m_buf s1 = skipn n (m_buf s)) (advance n) (advance n) s.
  Proof.
    intros C L. unfold advance. apply msim_get_buf.
    eapply msim_bind; [apply msim_lift; [apply skip_sim; eassumption|exact C]|].
    intros s1 a b _ (-> & -> & -> & C1 & _). unfold msim, put_buf. exists tt. auto.
  Qed.
  Lemma msim_imp {A B} (R Q : ms -> A -> B -> Prop) m m' s : msim R m m' s ->
    (forall s1 a b, R s1 a b -> Q s1 a b) -> msim Q m m' s.
  Proof.
    unfold msim. intros H K. destruct (m s) as [s1 [a|e| |]]; auto. destruct H as (b & E & C & HR). eauto.
  Qed.
  Definition any {A B} (s : ms) (a : A) (b : B) : Prop := True.

  Lemma msim_advance_st s n : cut t (m_buf s) -> n <= List.length (m_buf s) ->
    msim any (advance_st n) (advance_st n) s.
  Proof.
    intros C L. unfold advance_st. eapply msim_bind; [apply msim_advance; assumption|].
    intros s1 a b C1 _. eapply msim_imp; [apply msim_blind; [blinds|exact C1]|]. intros; exact Logic.I.
  Qed.
  Lemma msim_any {A} (m : M A) s : blind m -> cut t (m_buf s) -> msim any m m s.
  Proof. intros H C. eapply msim_imp; [apply msim_blind; assumption|]. intros; exact Logic.I. Qed.

  (** blind steps, then the rest *)
  Lemma msim_then {A B B'} (Q : ms -> B -> B' -> Prop) (m : M A) k k' s : blind m -> cut t (m_buf s) ->
    (forall s1 a, m_buf s1 = m_buf s -> cut t (m_buf s1) -> msim Q (k a) (k' a) s1) ->
    msim Q (mbind m k) (mbind m k') s.
  Proof.
    intros H C K. eapply msim_bind; [apply msim_blind; assumption|].
    intros s1 a b C1 (<- & E). apply K; assumption.
  Qed.
  (** the common end of a method: advance, positions, a token *)
  Lemma msim_finish {A B} n (m : M A) (k : M B) s : cut t (m_buf s) -> n <= List.length (m_buf s) ->
    blind m -> blind k -> msim any (advance n ;; m ;; k) (advance n ;; m ;; k) s.
  Proof.
    intros C L HM HK. eapply msim_bind; [apply msim_advance; assumption|].
    intros s1 a b C1 _. apply msim_then; [exact HM|exact C1|]. intros s2 a2 _ C2. apply msim_any; assumption.
  Qed.

  Variables (o o' : flags).
  Hypothesis E : extendable o = true.
  Hypothesis LZ : lazy_mode o = lz.
  Hypothesis LZ' : lazy_mode o' = lz.
  Hypothesis NX : extendable o' = false.

  Lemma len1 (b : str) c : at_is b 0 c = true -> 1 <= List.length b.
  Proof. destruct b; cbn; [discriminate|lia]. Qed.

  Lemma marker_msim s start : cut t (m_buf s) -> 3 <= List.length (m_buf s) ->
    msim any (fetch_document_marker start) (fetch_document_marker start) s.
  Proof.
    intros C L. unfold fetch_document_marker.
    apply msim_then; [apply blind_unroll|exact C|]. intros s1 _ B1 C1.
    apply msim_then; [apply blind_remove|exact C1|]. intros s2 _ B2 C2.
    apply msim_then; [blinds|exact C2|]. intros s3 _ B3 C3.
    eapply msim_bind; [apply msim_advance_st; [exact C3|congruence]|]. intros s4 a b C4 _.
    apply msim_any; [apply blind_here; exact Logic.I|exact C4].
  Qed.

  (* the second half of the fetch methods for directives, tags and anchors *)
  Lemma directive_msim s : cut t (m_buf s) -> 1 <= List.length (m_buf s) ->
    msim any (fetch_directive o) (fetch_directive o') s.
  Proof.
    intros C L. unfold fetch_directive. apply msim_get_buf. rewrite at_is_app by lia.
    destruct (negb (at_is (m_buf s) 0 37)); [apply msim_any; [blinds|exact C]|].
    eapply msim_bind; [apply msim_lift; [apply (cache_at_sim t o o' E)|exact C]|]. intros s1 [] [] _ (-> & Lc).
    eapply msim_bind; [apply msim_lift; [apply skip_sim; [exact C|lia]|exact C]|].
    intros s1 bd bd' _ (-> & -> & _ & Cb & Lb).
    eapply (msim_bind (fun s1 a b => s1 = s /\ a = b)).
    { eapply msim_imp; [apply (msim_lift eq); [|exact C]|intros; assumption].
      unfold directive_kind_of. rewrite !starts_with_app by (cbn; lia). apply sim_refl. }
    intros s1 kind ? _ (-> & <-).
    eapply msim_bind; [apply msim_lift; [apply (adv_sim t (List.length (m_buf s)) (List.length (m_buf s)));
        [split; [exact C|cbn; lia]|destruct kind; cbn; lia]|exact C]|].
    intros s1 [b1 d1] ? _ (-> & (-> & H1) & _). cbn [fst snd] in *.
    eapply msim_bind; [apply msim_lift; [apply (directive_sim t o o' E _ _ _ _ _ H1)|exact C]|].
    intros s1 p p' _ (-> & tok & b2 & d2 & -> & -> & C2 & L2).
    apply msim_then; [apply blind_unroll|exact C|]. intros s1 _ B1 C1.
    apply msim_then; [apply blind_remove|exact C1|]. intros s2 _ B2 C2'.
    apply msim_then; [blinds|exact C2'|]. intros s3 _ B3 C3. rewrite consumed_grow.
    apply msim_finish; [exact C3|unfold consumed; rewrite B3, B2, B1; lia|apply blind_add|apply blind_here; exact Logic.I].
  Qed.

  Lemma tag_msim s : cut t (m_buf s) -> 1 <= List.length (m_buf s) ->
    msim any (fetch_tag o) (fetch_tag o') s.
  Proof.
    intros C L. unfold fetch_tag. apply msim_get_buf. rewrite at_is_app by lia.
    destruct (negb (at_is (m_buf s) 0 33)); [apply msim_any; [blinds|exact C]|].
    eapply msim_bind; [apply msim_lift; [apply (node_tag_sim t o o' E), C|exact C]|].
    intros s1 [[tok n] d] ? _ (-> & <- & Ln). cbn [fst snd] in Ln.
    eapply msim_bind; [apply msim_lift; [apply skip_sim; [exact C|exact Ln]|exact C]|].
    intros s1 b1 ? _ (-> & -> & _ & Cb & Lb).
    apply msim_then; [apply blind_save|exact C|]. intros s1 _ B1 C1.
    apply msim_then; [blinds|exact C1|]. intros s2 _ B2 C2. rewrite consumed_grow.
    apply msim_finish; [exact C2|unfold consumed; rewrite B2, B1; lia|apply blind_add|apply blind_here; exact Logic.I].
  Qed.

  Lemma anchor_msim s : cut t (m_buf s) -> 1 <= List.length (m_buf s) ->
    msim any (fetch_anchor o) (fetch_anchor o') s.
  Proof.
    intros C L. unfold fetch_anchor. apply msim_get_buf. rewrite !at_is_app by lia.
    destruct (at_is (m_buf s) 0 42 || at_is (m_buf s) 0 38); [|apply msim_any; [blinds|exact C]].
    eapply msim_bind; [apply msim_lift; [apply (anchor_sim t o o' E (List.length (m_buf s)) (List.length (m_buf s)));
       [split; [exact C|cbn; lia]|eapply long_ne; [|exact L]; lia]|exact C]|].
    intros s1 p p' _ (-> & tok & b2 & d2 & -> & -> & C2 & L2 & _).
    apply msim_then; [apply blind_save|exact C|]. intros s1 _ B1 C1.
    apply msim_then; [blinds|exact C1|]. intros s2 _ B2 C3. rewrite consumed_grow.
    apply msim_finish; [exact C3|unfold consumed; rewrite B2, B1; lia|apply blind_add|apply blind_here; exact Logic.I].
  Qed.

  Lemma flow_scalar_msim s : cut t (m_buf s) -> 1 <= List.length (m_buf s) ->
    msim any (fetch_flow_scalar o) (fetch_flow_scalar o') s.
  Proof.
    intros C L. unfold fetch_flow_scalar. apply msim_get_buf. rewrite !at_is_app by lia.
    destruct (at_is (m_buf s) 0 39 || at_is (m_buf s) 0 34); [|apply msim_any; [blinds|exact C]].
    eapply (msim_bind (fun s1 a b => s1 = s /\ a = b /\ snd (fst a) <= List.length (m_buf s) /\ firm (fst (fst a)))).
    { apply msim_lift; [|exact C]. unfold scan_flow_scalar. rewrite LZ, LZ'. destruct (both lz) as [Z|Z]; rewrite Z.
      - eapply sim_bind; [apply simk_note, (flow_lazy_sim t o o' E _ C); congruence|].
        intros [[d n] st] ? (R & <- & Ln). apply sim_ok. split; [reflexivity|]. split; [exact Ln|exact (flow_firm _ _ _ _ _ _ _ R)].
      - eapply sim_bind; [apply (flow_eager_sim t o o' E), C|]. intros [[tok n] d] ? (<- & Ln). apply sim_ok. cbn. auto. }
    intros s1 [[tok n] d] ? _ (-> & <- & Ln & FT). cbn [fst snd] in Ln, FT.
    apply msim_then; [apply blind_save|exact C|]. intros s1 _ B1 C1.
    apply msim_then; [blinds|exact C1|]. intros s2 _ B2 C2.
    apply msim_finish; [exact C2|rewrite B2, B1; exact Ln|apply blind_add|apply blind_here, FT].
  Qed.

  Lemma plain_scalar_msim s : cut t (m_buf s) ->
    msim any (fetch_plain_scalar o) (fetch_plain_scalar o') s.
  Proof.
    intros C. unfold fetch_plain_scalar. apply msim_get_buf. apply msim_get_sc; [reflexivity|].
    eapply (msim_bind (fun s1 a b => s1 = s /\ a = b /\ snd (fst a) <= List.length (m_buf s) /\ firm (fst (fst a)))).
    { apply msim_lift; [|exact C]. unfold scan_plain_scalar. rewrite LZ, LZ'. cbv zeta. destruct (both lz) as [Z|Z]; rewrite Z.
      - eapply sim_bind; [apply simk_note, (plain_lazy_sim t o o' E _ C); congruence|].
        intros [[d n] st] ? (R & <- & Ln). apply sim_ok. split; [reflexivity|]. split; [exact Ln|exact (plain_firm _ _ _ _ _ _ _ _ R)].
      - eapply sim_bind; [apply (plain_eager_sim t o o' E), C|]. intros [[tok n] d] ? (<- & Ln). apply sim_ok. cbn. auto. }
    intros s1 [[tok n] d] ? _ (-> & <- & Ln & FT). cbn [fst snd] in Ln, FT.
    apply msim_then; [apply blind_save|exact C|]. intros s1 _ B1 C1.
    apply msim_then; [blinds|exact C1|]. intros s2 _ B2 C2.
    apply msim_finish; [exact C2|rewrite B2, B1; exact Ln|blinds|apply blind_here, FT].
  Qed.

  Lemma msim_here tok s : cut t (m_buf s) -> msim any (enqueue_here tok) (enqueue_here (tseal lz tok)) s.
  Proof.
    intros C. unfold enqueue_here. apply msim_get_sc; [reflexivity|]. unfold msim, enqueue. exists tt. cbn [m_buf m_sc m_q].
    split; [|split; [exact C|exact Logic.I]]. unfold mgrow. cbn [m_buf m_sc m_q]. rewrite qseal_push, eseal_entry. reflexivity.
  Qed.
  Lemma block_scalar_msim s fold : cut t (m_buf s) -> m_buf s <> [] -> (lz = true -> noret (m_buf s)) ->
    msim any (fetch_block_scalar o fold) (fetch_block_scalar o' fold) s.
  Proof.
    intros C N NR. unfold fetch_block_scalar. apply msim_get_buf. apply msim_get_sc; [reflexivity|].
    apply msim_then; [apply blind_remove|exact C|]. intros s1 _ B1 C1.
    apply msim_then; [blinds|exact C1|]. intros s2 _ B2 C2.
    eapply (msim_bind (fun s3 a b => s3 = s2 /\ (exists x n d, a = (x, n, d) /\ b = (tseal lz x, n, d) /\ n <= List.length (m_buf s)))).
    { apply msim_lift; [|exact C2]. unfold scan_block_scalar. rewrite LZ, LZ'. cbv zeta. destruct (both lz) as [Z|Z]; rewrite Z.
      - eapply sim_bind; [apply (block_lazy_sim t o o' E); auto|]. intros p p' (x & n & d & -> & -> & Ln). apply sim_ok.
        do 3 eexists. split; [reflexivity|]. split; [|exact Ln]. cbn. unfold no_extend. rewrite LZ.
        replace o' with (mkFlags false lz); [reflexivity|]. rewrite <- LZ', <- NX. destruct o'. reflexivity.
      - eapply sim_bind; [apply (block_eager_sim t o o' E); assumption|]. intros [[tok n] d] ? (<- & Ln). apply sim_ok.
        do 3 eexists. split; [reflexivity|]. split; [reflexivity|exact Ln]. }
    intros s3 p p' _ (-> & x & n & d & -> & -> & Ln).
    eapply msim_bind; [apply msim_advance; [exact C2|rewrite B2, B1; exact Ln]|].
    intros s3 a b C3 _. apply msim_then; [blinds|exact C3|]. intros s4 a4 _ C4. apply msim_here, C4.
  Qed.

  Lemma punct_msim {A B} (m : M A) (k : M B) s : blind m -> blind k -> cut t (m_buf s) -> 1 <= List.length (m_buf s) ->
    msim any (m ;; advance_st 1 ;; k) (m ;; advance_st 1 ;; k) s.
  Proof.
    intros HM HK C L. apply msim_then; [exact HM|exact C|]. intros s1 _ B1 C1.
    eapply msim_bind; [apply msim_advance_st; [exact C1|congruence]|]. intros s2 a b C2 _.
    apply msim_any; assumption.
  Qed.

  Lemma open_msim s map : cut t (m_buf s) -> 1 <= List.length (m_buf s) ->
    msim any (fetch_flow_collection_start map) (fetch_flow_collection_start map) s.
  Proof.
    intros C L. unfold fetch_flow_collection_start. apply punct_msim; [blinds| |exact C|exact L].
    apply blind_bind; [apply blind_here; exact Logic.I|intros _]. apply blind_bind; [apply blind_save|intros _]. blinds.
  Qed.
  Lemma close_msim s map : cut t (m_buf s) -> 1 <= List.length (m_buf s) ->
    msim any (fetch_flow_collection_end map) (fetch_flow_collection_end map) s.
  Proof.
    intros C L. unfold fetch_flow_collection_end.
    apply msim_then; [apply blind_remove|exact C|]. intros s1 _ B1 C1.
    apply msim_get_sc; [reflexivity|].
    eapply (msim_bind (fun s2 a b => s2 = s1 /\ a = b)).
    { apply (msim_lift eq); [apply sim_refl|exact C1]. }
    intros s2 c ? _ (-> & <-).
    apply msim_then; [blinds|exact C1|]. intros s2 _ B2 C2.
    apply punct_msim; [blinds|apply blind_here; exact Logic.I|exact C2|congruence].
  Qed.
  Lemma comma_msim s : cut t (m_buf s) -> 1 <= List.length (m_buf s) ->
    msim any fetch_flow_collection_entry fetch_flow_collection_entry s.
  Proof.
    intros C L. unfold fetch_flow_collection_entry.
    apply msim_then; [apply blind_remove|exact C|]. intros s1 _ B1 C1.
    apply punct_msim; [blinds|apply blind_here; exact Logic.I|exact C1|congruence].
  Qed.
  Lemma dash_msim s : cut t (m_buf s) -> 1 <= List.length (m_buf s) ->
    msim any fetch_block_collection_entry fetch_block_collection_entry s.
  Proof.
    intros C L. unfold fetch_block_collection_entry. apply msim_get_sc; [reflexivity|]. cbv zeta.
    apply msim_then; [destruct (is_block (sc_cxt (m_sc s)) && sc_ska (m_sc s)); [apply blind_roll|blinds]|exact C|].
    intros s1 _ B1 C1. apply msim_then; [blinds|exact C1|]. intros s2 _ B2 C2.
    apply msim_then; [apply blind_remove|exact C2|]. intros s3 _ B3 C3.
    apply punct_msim; [blinds|apply blind_here; exact Logic.I|exact C3|congruence].
  Qed.
  Lemma key_msim s : cut t (m_buf s) -> 1 <= List.length (m_buf s) ->
    msim any fetch_explicit_key fetch_explicit_key s.
  Proof.
    intros C L. unfold fetch_explicit_key. apply msim_get_sc; [reflexivity|]. cbv zeta.
    apply msim_then; [destruct (is_block (sc_cxt (m_sc s))); [destruct (negb (sc_ska (m_sc s))); [blinds|apply blind_roll]|blinds]|exact C|].
    intros s1 _ B1 C1. apply msim_then; [apply blind_remove|exact C1|]. intros s2 _ B2 C2.
    apply punct_msim; [blinds|apply blind_here; exact Logic.I|exact C2|congruence].
  Qed.
  Lemma value_msim s : cut t (m_buf s) -> 1 <= List.length (m_buf s) ->
    msim any fetch_value fetch_value s.
  Proof.
    intros C L. unfold fetch_value. apply msim_get_sc; [reflexivity|].
    apply msim_then; [blinds|exact C|]. intros s1 _ B1 C1. cbv zeta.
    apply punct_msim; [|apply blind_here; exact Logic.I|exact C1|congruence].
    assert (blind ((if is_block (sc_cxt (m_sc s)) then if negb (sc_ska (m_sc s)) then mlift (Err InvalidValue)
      else roll_indent (sread (sc_st (m_sc s))) (slines (sc_st (m_sc s))) (scol (sc_st (m_sc s))) true else mret tt) ;;
      upd (set_ska (is_block (sc_cxt (m_sc s)))))) as OT.
    { apply blind_bind; [|intros _; blinds].
      destruct (is_block (sc_cxt (m_sc s))); [destruct (negb (sc_ska (m_sc s))); [blinds|apply blind_roll]|blinds]. }
    destruct (sc_key (m_sc s)) as [k|]; [|exact OT]. destruct (kp_allowed (k_possible k)); [|exact OT].
    apply blind_bind; [apply blind_roll|intros _]. blinds.
  Qed.

  Lemma dispatch_msim s : cut t (m_buf s) -> 4 <= List.length (m_buf s) -> (lz = true -> noret (m_buf s)) ->
    msim any (dispatch o) (dispatch o') s.
  Proof.
    intros C L NR. unfold dispatch. apply msim_get_buf. apply msim_get_sc; [reflexivity|]. cbv zeta.
    assert (m_buf s <> []) as N by (eapply long_ne; [|exact L]; lia).
    rewrite !at_is_app, !is_wsZ_at_app, !starts_with_app by (auto; cbn; lia).
    assert (is_plain_scalar (m_buf s ++ t) (sc_cxt (m_sc s)) = is_plain_scalar (m_buf s) (sc_cxt (m_sc s))) as ->.
    { unfold is_plain_scalar. rewrite is_wsZ_app by assumption. unfold is_plain_safe_c. rewrite flow_ind_app by lia.
      destruct (m_buf s) as [|x [|y r]]; [congruence|cbn in L; lia|]. reflexivity. }
    repeat match goal with |- context [if ?c then _ else _] => destruct c end;
      first [ apply directive_msim | apply marker_msim | apply open_msim | apply close_msim | apply comma_msim
            | apply dash_msim | apply key_msim | apply value_msim | apply anchor_msim | apply tag_msim
            | apply block_scalar_msim | apply flow_scalar_msim | apply plain_scalar_msim
            | apply msim_any; [blinds|] ]; auto; lia.
  Qed.

  Lemma eat_msim s : cut t (m_buf s) ->
    msim (fun s1 _ _ => m_buf s1 <> []) (sc_eat_whitespace o) (sc_eat_whitespace o') s.
  Proof.
    intros C. unfold sc_eat_whitespace. apply msim_get_buf.
    eapply msim_bind; [apply msim_lift; [apply (eat_ws_sim t o o' E (List.length (m_buf s)) (List.length (m_buf s)));
      split; [exact C|cbn; lia]|exact C]|].
    intros s1 [b1 d1] p' _ (-> & (-> & (C1 & L1 & _)) & N1). cbn [fst snd] in *. rewrite consumed_grow.
    apply msim_then; [destruct (Nat.eqb (slines d1) 0); blinds|exact C|]. intros s2 _ B2 C2.
    eapply msim_bind; [apply msim_advance; [exact C2|rewrite B2; unfold consumed; lia]|].
    intros s3 a b C3 B3. eapply msim_imp; [apply msim_blind; [apply blind_add|exact C3]|].
    intros s4 a4 b4 (_ & B4). rewrite B4, B3, B2. intros H. apply (f_equal (@List.length N)) in H.
    rewrite skipn_length in H. unfold consumed in H.
    destruct b1; [congruence|]. cbn [List.length] in *. lia.
  Qed.

  Lemma pop_zero_msim s : cut t (m_buf s) -> m_buf s <> [] ->
    msim (fun s1 _ _ => m_buf s1 = m_buf s) pop_zero_indent_sequence pop_zero_indent_sequence s.
  Proof.
    intros C N. unfold pop_zero_indent_sequence. apply msim_get_sc; [reflexivity|]. apply msim_get_buf.
    rewrite at_is_app by (destruct (m_buf s); [congruence|cbn; lia]).
    eapply msim_imp; [apply msim_blind; [|exact C]|cbn beta; tauto].
    blinds. apply blind_ends.
  Qed.

  (** the part of a round after white space and bookkeeping *)
  Definition tail_of (o : flags) : M unit :=
    do b <- get_buf; do sc <- get_sc;
    if is_empty b || match sc_state sc with SDone => true | _ => false end
    then fetch_stream_end
    else mlift (cache o b 4) ;; dispatch o.
  Definition settle : M unit :=
    expire_stale_saved_key ;;
    do sc <- get_sc; unroll_indent (Some (scol (sc_st sc))) ;; pop_zero_indent_sequence.

  Lemma settle_msim s : cut t (m_buf s) -> m_buf s <> [] ->
    msim (fun s1 _ _ => m_buf s1 = m_buf s) settle settle s.
  Proof.
    intros C N. unfold settle. apply msim_then; [apply blind_expire|exact C|]. intros s1 _ B1 C1.
    apply msim_get_sc; [reflexivity|].
    apply msim_then; [apply blind_unroll|exact C1|]. intros s2 _ B2 C2.
    eapply msim_imp; [apply pop_zero_msim; [exact C2|congruence]|]. cbn beta. congruence.
  Qed.
  Lemma tail_msim s : cut t (m_buf s) -> m_buf s <> [] ->
    sc_state (m_sc s) <> SDone -> (lz = true -> noret (m_buf s)) -> msim any (tail_of o) (tail_of o') s.
  Proof.
    intros C N D NR. unfold tail_of. apply msim_get_buf. apply msim_get_sc; [reflexivity|].
    rewrite is_empty_app by exact N.
    replace (is_empty (m_buf s) || match sc_state (m_sc s) with SDone => true | _ => false end) with false
      by (destruct (m_buf s); [congruence|]; destruct (sc_state (m_sc s)); cbn; congruence).
    eapply msim_bind; [apply msim_lift; [apply (cache_sim t o o' E)|exact C]|].
    intros s1 a b _ (-> & L). apply dispatch_msim; assumption.
  Qed.
End Methods.

(** a round is: white space, bookkeeping, token *)
Lemma round_split o s : sc_state (m_sc s) <> SStart ->
  scan_next_token o s = mbind (sc_eat_whitespace o) (fun _ => mbind settle (fun _ => tail_of o)) s.
Proof.
  intros ST. unfold scan_next_token, settle, tail_of. unfold mbind at 1, get_sc at 1.
  destruct (sc_state (m_sc s)) eqn:ES; [congruence| |];
  unfold mbind; destruct (sc_eat_whitespace o s) as [s1 [x|e| |]]; try reflexivity;
  destruct (expire_stale_saved_key s1) as [s2 [x2|e| |]]; try reflexivity; cbn [get_sc];
  destruct (unroll_indent (Some (scol (sc_st (m_sc s2)))) s2) as [s3 [x3|e| |]]; try reflexivity.
Qed.

(** ** The stack of indents: a zero-indented sequence sits on a mapping *)
Fixpoint zok (i : nat) (l : list indent_entry) : Prop :=
  match l with
  | [] => True
  | e :: r => (ie_zero e = true -> ie_indent e = i /\ exists e2 r2, r = e2 :: r2 /\ ie_map e2 = true) /\
              zok (ie_indent e) r
  end.
Definition zcx (c : context) : Prop := zok (c_indent c) (c_indents c).
Definition zsc (sc : scanner) : Prop := zcx (sc_cxt sc).

Lemma pop_zok col : forall l i i' l' n, pop_indents l i col = (i', l', n) -> zok i l -> zok i' l'.
Proof.
  induction l as [|e r IH]; intros i i' l' n; cbn [pop_indents]; destruct (indent_gt i col); intros Q Z; try (inversion Q; subst; exact Z).
  destruct (pop_indents r (ie_indent e) col) as [[i1 l1] n1] eqn:P. inversion Q; subst. destruct Z. eapply IH; eauto.
Qed.
Lemma dec_zcx c col : zcx c -> zcx (fst (indent_decrement c col)).
Proof.
  intros Z. unfold indent_decrement. destruct (is_block c); [|exact Z].
  destruct (pop_indents (c_indents c) (c_indent c) col) as [[i l] n] eqn:P. cbn. eapply pop_zok; eauto.
Qed.

Definition keeps {A} (m : M A) : Prop := forall s, zsc (m_sc s) -> zsc (m_sc (fst (m s))).
Lemma keeps_bind {A B} (m : M A) (k : A -> M B) : keeps m -> (forall a, keeps (k a)) -> keeps (mbind m k).
Proof.
  intros H K s Z. unfold mbind. specialize (H s Z). destruct (m s) as [s1 [a|e| |]]; cbn [fst] in *; auto. apply K, H.
Qed.
Lemma keeps_get {A} (k : scanner -> M A) : (forall sc, zsc sc -> keeps (k sc)) -> keeps (mbind get_sc k).
Proof. intros H s Z. apply H; assumption. Qed.
Lemma keeps_buf {A} (k : str -> M A) : (forall b, keeps (k b)) -> keeps (mbind get_buf k).
Proof. intros H s Z. apply H; assumption. Qed.
Lemma keeps_lift {A} (r : sres A) : keeps (mlift r). Proof. intros s Z. exact Z. Qed.
Lemma keeps_ret {A} (a : A) : keeps (mret a). Proof. intros s Z. exact Z. Qed.
Lemma keeps_put b : keeps (put_buf b). Proof. intros s Z. exact Z. Qed.
Lemma keeps_enqueue x r : keeps (enqueue x r). Proof. intros s Z. exact Z. Qed.
Lemma keeps_upd f : (forall sc, zsc sc -> zsc (f sc)) -> keeps (upd f). Proof. intros H s Z. cbn. apply H, Z. Qed.

Lemma keeps_liftk {A B} (r : sres A) (k : A -> M B) : (forall a, r = Ok a -> keeps (k a)) -> keeps (mbind (mlift r) k).
Proof. intros H s Z. unfold mbind, mlift. destruct r; try exact Z. apply (H a eq_refl s Z). Qed.

Ltac keepz :=
  repeat first
    [ assumption | apply keeps_lift | apply keeps_ret | apply keeps_enqueue | apply keeps_put
    | apply keeps_upd; intros ? ?; assumption
    | apply keeps_get; intros ? ?
    | apply keeps_buf; intros ?
    | apply keeps_bind; [|intros ?]
    | match goal with |- keeps (if ?c then _ else _) => destruct c end
    | match goal with |- keeps (match ?c with _ => _ end) => destruct c end ].

Lemma keeps_ends n k : keeps (enqueue_ends n k). Proof. induction n; cbn [enqueue_ends]; keepz. Qed.
Lemma keeps_cxt c : zcx c -> keeps (upd (set_cxt c)). Proof. intros Z. apply keeps_upd. intros sc _. exact Z. Qed.
Lemma keeps_unroll col : keeps (unroll_indent col).
Proof.
  unfold unroll_indent. apply keeps_get. intros sc Z. destruct (is_block (sc_cxt sc)); [|keepz].
  pose proof (dec_zcx (sc_cxt sc) col Z) as D. destruct (indent_decrement (sc_cxt sc) col) as [c n].
  apply keeps_bind; [apply keeps_cxt, D|intros _; apply keeps_ends].
Qed.
Lemma keeps_roll a l c m : keeps (roll_indent a l c m).
Proof.
  unfold roll_indent. apply keeps_get. intros sc Z. cbv zeta. destruct (is_block (sc_cxt sc)); [|keepz].
  destruct (indent_ltb (cur_indent (sc_cxt sc)) c).
  { apply keeps_bind; [apply keeps_cxt|intros _; keepz]. split; [discriminate|exact Z]. }
  destruct (negb m && indent_eqb (cur_indent (sc_cxt sc)) c) eqn:Q; [|keepz].
  destruct (c_indents (sc_cxt sc)) as [|e r] eqn:CI; [keepz|]. destruct (ie_map e) eqn:EM; [|keepz].
  apply keeps_bind; [apply keeps_cxt|intros _; keepz].
  apply andb_true_iff in Q. destruct Q as [_ Q]. unfold cur_indent in Q. destruct (c_started (sc_cxt sc)); [|discriminate].
  cbn in Q. apply Nat.eqb_eq in Q. split; [|exact Z].
  intros _. cbn [ie_indent]. split; [exact Q|]. eauto.
Qed.
Lemma keeps_expire : keeps expire_stale_saved_key. Proof. unfold expire_stale_saved_key. keepz. Qed.
Lemma keeps_remove : keeps remove_saved_key. Proof. unfold remove_saved_key. keepz. Qed.
Lemma keeps_save r : keeps (save_key r). Proof. unfold save_key. cbv zeta. keepz. Qed.
Lemma keeps_pop : keeps pop_zero_indent_sequence.
Proof.
  unfold pop_zero_indent_sequence. apply keeps_get. intros sc Z. apply keeps_buf. intros b.
  unfold pop_indent. unfold zsc, zcx in Z.
  destruct (c_indents (sc_cxt sc)) as [|e r]; [keepz|].
  match goal with |- context [if ?c then _ else _] => destruct c end; [|keepz].
  apply keeps_bind; [apply keeps_cxt; apply Z|intros _; apply keeps_ends].
Qed.
Lemma keeps_eat o : keeps (sc_eat_whitespace o). Proof. unfold sc_eat_whitespace, advance, add_st. keepz. Qed.
Lemma keeps_start : keeps fetch_stream_start. Proof. unfold fetch_stream_start, enqueue_here. keepz. Qed.
Lemma keeps_finish : keeps fetch_stream_end.
Proof.
  unfold fetch_stream_end, enqueue_here. apply keeps_get. intros sc Z. apply keeps_buf. intros b.
  destruct (sc_state sc); try apply keeps_ret; (destruct (is_empty b); [|apply keeps_ret]);
  (apply keeps_bind; [apply keeps_unroll|intros _]; apply keeps_bind; [apply keeps_remove|intros _]; keepz).
Qed.
Ltac keepy :=
  repeat first
    [ apply keeps_unroll | apply keeps_roll | apply keeps_remove | apply keeps_save
    | assumption | apply keeps_lift | apply keeps_ret | apply keeps_enqueue | apply keeps_put
    | apply keeps_upd; intros ? ?; assumption
    | apply keeps_get; intros ? ?
    | apply keeps_buf; intros ?
    | apply keeps_bind; [|intros ?]
    | match goal with |- keeps (if ?c then _ else _) => destruct c end
    | match goal with |- keeps (match ?c with _ => _ end) => destruct c end ].
Lemma keeps_dispatch o : keeps (dispatch o).
Proof.
  unfold dispatch. apply keeps_buf. intros b. apply keeps_get. intros sc Z. cbv zeta.
  repeat match goal with |- context [if ?c then _ else _] => destruct c end.
  - unfold fetch_directive, enqueue_here, add_st, advance. keepy.
  - unfold fetch_document_marker, enqueue_here, advance_st, advance. keepy.
  - unfold fetch_flow_collection_start, enqueue_here, advance_st, advance. keepy.
  - unfold fetch_flow_collection_end, enqueue_here, advance_st, advance.
    apply keeps_bind; [apply keeps_remove|intros _]. apply keeps_get. intros sc1 Z1.
    apply keeps_liftk. intros c FD. assert (ZC : zcx c).
    { unfold flow_decrement in FD. destruct (c_flow (sc_cxt sc1)); [discriminate|]. assert (c = mkCxt n (c_indent (sc_cxt sc1)) (c_indents (sc_cxt sc1)) (c_started (sc_cxt sc1))) as -> by congruence. exact Z1. }
    apply keeps_bind; [apply keeps_cxt, ZC|intros _]. keepy.
  - unfold fetch_flow_collection_entry, enqueue_here, advance_st, advance. keepy.
  - unfold fetch_block_collection_entry, enqueue_here, advance_st, advance. apply keeps_get. intros sc1 Z1. cbv zeta.
    apply keeps_bind; [destruct (is_block (sc_cxt sc1) && sc_ska sc1); [apply keeps_roll|keepy]|intros _].
    apply keeps_bind; [|intros _; keepy]. apply keeps_upd. intros sc2 Z2. unfold zsc, zcx, refresh_line in *. cbn [sc_cxt set_cxt].
    destruct (c_indents (sc_cxt sc2)) as [|e r] eqn:CI; [rewrite CI; exact Z2|].
    destruct (Nat.eqb (ie_indent e) (scol (sc_st sc2)) && Nat.ltb (ie_line e) (slines (sc_st sc2))); [exact Z2|]. rewrite CI. exact Z2.
  - unfold fetch_explicit_key, enqueue_here, advance_st, advance. keepy.
  - unfold fetch_value, enqueue_here, advance_st, advance. keepy.
  - unfold fetch_anchor, enqueue_here, add_st, advance. keepy.
  - unfold fetch_tag, enqueue_here, add_st, advance. keepy.
  - unfold fetch_block_scalar, enqueue_here, advance. keepy.
  - unfold fetch_flow_scalar, enqueue_here, add_st, advance. keepy.
  - unfold fetch_plain_scalar, enqueue_here, advance. keepy.
  - keepy.
Qed.
Lemma keeps_round o : keeps (scan_next_token o).
Proof.
  unfold scan_next_token. apply keeps_get. intros sc Z.
  assert (keeps (sc_eat_whitespace o ;; expire_stale_saved_key ;;
      do sc <- get_sc; unroll_indent (Some (scol (sc_st sc))) ;; pop_zero_indent_sequence ;;
      do b <- get_buf; do sc <- get_sc;
      if is_empty b || match sc_state sc with SDone => true | _ => false end
      then fetch_stream_end else mlift (cache o b 4) ;; dispatch o)) as H.
  { apply keeps_bind; [apply keeps_eat|intros _]. apply keeps_bind; [apply keeps_expire|intros _].
    apply keeps_get. intros sc1 Z1. apply keeps_bind; [apply keeps_unroll|intros _]. apply keeps_bind; [apply keeps_pop|intros _].
    apply keeps_buf. intros b. apply keeps_get. intros sc2 Z2.
    match goal with |- context [if ?c then _ else _] => destruct c end; [apply keeps_finish|].
    apply keeps_bind; [keepy|intros _; apply keeps_dispatch]. }
  destruct (sc_state sc); [apply keeps_start|exact H|exact H].
Qed.

(** ** Rounds that ask for more text: what they have changed *)
Definition calm {A} (m : M A) : Prop := forall s, snd (m s) <> Err Extend.
Lemma calm_bind {A B} (m : M A) (k : A -> M B) : calm m -> (forall a, calm (k a)) -> calm (mbind m k).
Proof.
  intros H K s. unfold mbind. specialize (H s). destruct (m s) as [s1 [a|e| |]]; cbn [snd] in *; try discriminate.
  - apply K. - intros Q. apply H. congruence.
Qed.
Lemma calm_get {A} (k : scanner -> M A) : (forall sc, calm (k sc)) -> calm (mbind get_sc k).
Proof. intros H s. apply H. Qed.
Lemma calm_buf {A} (k : str -> M A) : (forall b, calm (k b)) -> calm (mbind get_buf k).
Proof. intros H s. apply H. Qed.
Lemma calm_err {A} e : e <> Extend -> calm (@mlift A (Err e)). Proof. intros H s. cbn. congruence. Qed.
Lemma calm_lift {A} (r : sres A) : r <> Err Extend -> calm (mlift r). Proof. intros H s. exact H. Qed.
Lemma calm_ret {A} (a : A) : calm (mret a). Proof. intros s. discriminate. Qed.
Lemma calm_put b : calm (put_buf b). Proof. intros s. discriminate. Qed.
Lemma calm_enqueue x r : calm (enqueue x r). Proof. intros s. discriminate. Qed.
Lemma calm_upd f : calm (upd f). Proof. intros s. discriminate. Qed.
Lemma calm_skip b n : skip b n <> Err Extend.
Proof. unfold skip. destruct (is_boundary b n); discriminate. Qed.
Lemma calm_flow c : flow_decrement c <> Err Extend.
Proof. unfold flow_decrement. destruct (c_flow c); discriminate. Qed.
Ltac calms :=
  repeat first
    [ assumption | apply calm_ret | apply calm_enqueue | apply calm_put | apply calm_upd
    | apply calm_err; discriminate | apply calm_lift, calm_skip | apply calm_lift, calm_flow
    | apply calm_get; intros ? | apply calm_buf; intros ? | apply calm_bind; [|intros ?]
    | match goal with |- calm (if ?c then _ else _) => destruct c end
    | match goal with |- calm (match ?c with _ => _ end) => destruct c end ].
Lemma calm_ends n k : calm (enqueue_ends n k). Proof. induction n; cbn [enqueue_ends]; calms. Qed.
Lemma calm_unroll c : calm (unroll_indent c).
Proof.
  unfold unroll_indent. apply calm_get. intros sc. destruct (is_block (sc_cxt sc)); [|calms].
  destruct (indent_decrement (sc_cxt sc) c). apply calm_bind; [calms|intros _; apply calm_ends].
Qed.
Lemma calm_pop : calm pop_zero_indent_sequence.
Proof.
  unfold pop_zero_indent_sequence. apply calm_get. intros sc. apply calm_buf. intros b.
  destruct (c_indents (sc_cxt sc)); [calms|]. match goal with |- context [if ?c then _ else _] => destruct c end; [|calms].
  destruct (pop_indent (sc_cxt sc)). apply calm_bind; [calms|intros _; apply calm_ends].
Qed.
Lemma calm_roll a b c m : calm (roll_indent a b c m). Proof. unfold roll_indent. cbv zeta. calms. Qed.
Lemma calm_expire : calm expire_stale_saved_key. Proof. unfold expire_stale_saved_key. calms. Qed.
Lemma calm_remove : calm remove_saved_key. Proof. unfold remove_saved_key. calms. Qed.
Lemma calm_save r : calm (save_key r).
Proof. unfold save_key. cbv zeta. calms. Qed.
Lemma calm_settle : calm settle.
Proof.
  unfold settle. apply calm_bind; [apply calm_expire|intros _]. apply calm_get. intros sc.
  apply calm_bind; [apply calm_unroll|intros _; apply calm_pop].
Qed.
Lemma calm_end : calm fetch_stream_end.
Proof.
  unfold fetch_stream_end, enqueue_here. apply calm_get. intros sc. apply calm_buf. intros b.
  destruct (sc_state sc); try apply calm_ret; (destruct (is_empty b); [|apply calm_ret]);
  (apply calm_bind; [apply calm_unroll|intros _]; calms).
Qed.

Definition late {A} (m : M A) : Prop := forall s s1, m s = (s1, Err Extend) -> s1 = s.
Lemma late_calm {A} (m : M A) : calm m -> late m.
Proof. intros H s s1 Q. specialize (H s). rewrite Q in H. cbn in H. congruence. Qed.
Lemma late_buf {A} (k : str -> M A) : (forall b, late (k b)) -> late (mbind get_buf k).
Proof. intros H s s1. apply H. Qed.
Lemma late_get {A} (k : scanner -> M A) : (forall b, late (k b)) -> late (mbind get_sc k).
Proof. intros H s s1. apply H. Qed.
Lemma late_lift {A B} (r : sres A) (k : A -> M B) : (forall a, late (k a)) -> late (mbind (mlift r) k).
Proof. intros H s s1. unfold mbind, mlift. destruct r; try (intros; congruence). apply H. Qed.
Ltac lates :=
  repeat first
    [ apply late_buf; intros ? | apply late_get; intros ? | apply late_lift; intros ?
    | match goal with |- late (if ?c then _ else _) => destruct c end
    | match goal with |- late (match ?c with _ => _ end) => destruct c end ].
Ltac calmy :=
  repeat first
    [ apply calm_unroll | apply calm_roll | apply calm_remove | apply calm_save
    | apply calm_ret | apply calm_enqueue | apply calm_put | apply calm_upd
    | apply calm_err; discriminate | apply calm_lift, calm_skip | apply calm_lift, calm_flow
    | apply calm_get; intros ? | apply calm_buf; intros ? | apply calm_bind; [|intros ?]
    | match goal with |- calm (if ?c then _ else _) => destruct c end
    | match goal with |- calm (match ?c with _ => _ end) => destruct c end ].

Lemma calm_use {A} (m : M A) s s1 : calm m -> m s = (s1, Err Extend) -> False.
Proof. intros H Q. specialize (H s). rewrite Q in H. cbn in H. congruence. Qed.

(** only a block scalar asks for more text after touching the scanner *)
Lemma block_late o fold s s1 : fetch_block_scalar o fold s = (s1, Err Extend) ->
  s1 = mkMs (m_buf s) (set_ska true (set_key None (m_sc s))) (m_q s) /\
  forall k, sc_key (m_sc s) = Some k -> kp_required (k_possible k) = false.
Proof.
  unfold fetch_block_scalar, remove_saved_key. unfold mbind, get_buf, get_sc, upd, mlift, mret.
  destruct s as [b [off st ska sta key cxt] q]. cbn [m_buf m_sc m_q sc_key sc_st sc_cxt].
  destruct key as [k|]; [destruct (kp_required (k_possible k)) eqn:KR|];
    [discriminate| |]; cbn [m_buf m_sc m_q sc_key sc_st sc_cxt];
  (destruct (scan_block_scalar o b sta cxt fold) as [[[tok n] st']|e| |]; try discriminate).
  - intros Q. exfalso. eapply (calm_use (advance n ;; upd (set_st st') ;; enqueue_here tok)); [|exact Q].
    unfold advance, enqueue_here. calmy.
  - intros Q. split; [inversion Q; reflexivity|]. intros k' K'. assert (k = k') as <- by congruence. exact KR.
  - intros Q. exfalso. eapply (calm_use (advance n ;; upd (set_st st') ;; enqueue_here tok)); [|exact Q].
    unfold advance, enqueue_here. calmy.
  - intros Q. split; [inversion Q; reflexivity|]. discriminate.
Qed.

Lemma dispatch_late o s s1 : dispatch o s = (s1, Err Extend) ->
  s1 = s \/ exists fold : bool, fetch_block_scalar o fold s = (s1, Err Extend) /\
    at_is (m_buf s) 0 (if fold then 62 else 124) = true /\ is_block (sc_cxt (m_sc s)) = true.
Proof.
  unfold dispatch. unfold mbind at 1, get_buf at 1. unfold mbind at 1, get_sc at 1.
  repeat match goal with |- (if ?c then _ else _) _ = _ -> _ => destruct c eqn:?C end; intros Q;
    match type of Q with fetch_block_scalar _ _ _ = _ => right | _ => left; revert Q end;
    try match goal with |- ?m _ = _ -> _ => cut (late m); [intros HL; apply HL|] end.
  - unfold fetch_directive, enqueue_here, add_st, advance. lates; apply late_calm; calmy.
  - apply late_calm. unfold fetch_document_marker, enqueue_here, advance_st, advance. calmy.
  - apply late_calm. unfold fetch_flow_collection_start, enqueue_here, advance_st, advance. calmy.
  - apply late_calm. unfold fetch_flow_collection_end, enqueue_here, advance_st, advance. calmy.
  - apply late_calm. unfold fetch_flow_collection_entry, enqueue_here, advance_st, advance. calmy.
  - apply late_calm. unfold fetch_block_collection_entry, enqueue_here, advance_st, advance. cbv zeta. calmy.
  - apply late_calm. unfold fetch_explicit_key, enqueue_here, advance_st, advance. cbv zeta. calmy.
  - apply late_calm. unfold fetch_value, enqueue_here, advance_st, advance. cbv zeta. calmy.
  - unfold fetch_anchor, enqueue_here, add_st, advance. lates; apply late_calm; calmy.
  - unfold fetch_tag, enqueue_here, add_st, advance. lates; apply late_calm; calmy.
  - exists (at_is (m_buf s) 0 62). split; [exact Q|].
    match goal with H : _ && is_block _ = true |- _ => apply andb_true_iff in H; destruct H as [H1 H2] end.
    split; [|exact H2]. destruct (at_is (m_buf s) 0 62) eqn:E62; [exact E62|]. rewrite orb_false_r in H1. exact H1.
  - unfold fetch_flow_scalar, enqueue_here, add_st, advance. lates; apply late_calm; calmy.
  - unfold fetch_plain_scalar, enqueue_here, add_st, advance. lates; apply late_calm; calmy.
  - apply late_calm. calmy.
Qed.

(** ** After white space and bookkeeping, both are done *)
Definition key_quiet (sc : scanner) : Prop :=
  match sc_key sc with
  | Some k => kp_allowed (k_possible k)
         && (Nat.ltb (slines (k_stats k)) (slines (sc_st sc))
             || (N.of_nat (sread (k_stats k)) + 1024 <? N.of_nat (sread (sc_st sc)))%N) = false
  | None => True
  end.
Definition dec_quiet (sc : scanner) : Prop :=
  is_block (sc_cxt sc) = true -> indent_decrement (sc_cxt sc) (Some (scol (sc_st sc))) = (sc_cxt sc, 0).
Definition pop_quiet (dash : bool) (sc : scanner) : Prop :=
  match c_indents (sc_cxt sc) with
  | e :: _ => Nat.ltb (ie_line e) (slines (sc_st sc)) && ie_zero e && negb (ie_map e) && negb dash = false
  | [] => True
  end.
Definition still (b : str) (sc : scanner) : Prop :=
  key_quiet sc /\ dec_quiet sc /\ pop_quiet (at_is b 0 45) sc.

Lemma still_settle s : still (m_buf s) (m_sc s) -> settle s = (s, Ok tt).
Proof.
  destruct s as [b sc q]. cbn [m_buf m_sc]. intros (K & D & P). unfold settle.
  assert (expire_stale_saved_key (mkMs b sc q) = (mkMs b sc q, Ok tt)) as EX.
  { unfold expire_stale_saved_key, key_quiet in *. unfold mbind, get_sc. cbn [m_sc].
    destruct (sc_key sc); [rewrite K; reflexivity|reflexivity]. }
  unfold mbind at 1. rewrite EX. unfold mbind at 1, get_sc at 1. cbn [m_sc].
  assert (unroll_indent (Some (scol (sc_st sc))) (mkMs b sc q) = (mkMs b sc q, Ok tt)) as UN.
  { unfold unroll_indent, dec_quiet in *. unfold mbind, get_sc. cbn [m_sc].
    destruct (is_block (sc_cxt sc)); [|reflexivity]. rewrite (D eq_refl). unfold upd. cbn. destruct sc; reflexivity. }
  unfold mbind at 1. rewrite UN. unfold pop_zero_indent_sequence, pop_quiet in *. unfold mbind, get_sc, get_buf. cbn [m_sc m_buf].
  destruct (c_indents (sc_cxt sc)); [reflexivity|]. rewrite P. reflexivity.
Qed.

Lemma ends_run n k : forall s, exists q, enqueue_ends n k s = (mkMs (m_buf s) (m_sc s) q, Ok tt).
Proof.
  induction n as [|n IH]; intros s; cbn [enqueue_ends]; [exists (m_q s); destruct s; reflexivity|].
  unfold mbind, enqueue. destruct (IH (mkMs (m_buf s) (m_sc s) (q_push (m_q s) (mkEntry (Tok TBlockEnd) k)))) as (q & H).
  exists q. exact H.
Qed.
Lemma pops_twice col : forall l i i' l' n, pop_indents l i col = (i', l', n) -> pop_indents l' i' col = (i', l', 0) .
Proof.
  induction l as [|e r IH]; intros i i' l' n; cbn [pop_indents]; destruct (indent_gt i col) eqn:G; intros Q.
  - inversion Q; subst. cbn. rewrite G. reflexivity.
  - inversion Q; subst. cbn. rewrite G. reflexivity.
  - destruct (pop_indents r (ie_indent e) col) as [[i1 l1] n1] eqn:P. inversion Q; subst. eapply IH; eauto.
  - inversion Q; subst. cbn [pop_indents]. rewrite G. reflexivity.
Qed.

Lemma decq sc : (is_block (sc_cxt sc) = true -> indent_gt (c_indent (sc_cxt sc)) (Some (scol (sc_st sc))) = true ->
  c_indents (sc_cxt sc) = []) -> dec_quiet sc.
Proof.
  intros H IB. specialize (H IB). unfold indent_decrement. rewrite IB. destruct (sc_cxt sc) as [f i l st]. cbn [c_flow c_indent c_indents c_started] in *.
  destruct l as [|e r]; cbn [pop_indents].
  - destruct (indent_gt i (Some (scol (sc_st sc)))); reflexivity.
  - destruct (indent_gt i (Some (scol (sc_st sc)))) eqn:G; [specialize (H eq_refl); discriminate|reflexivity].
Qed.
Lemma settle_still s sb : zsc (m_sc s) -> settle s = (sb, Ok tt) ->
  m_buf sb = m_buf s /\ still (m_buf s) (m_sc sb) /\ sc_state (m_sc sb) = sc_state (m_sc s) /\ zsc (m_sc sb).
Proof.
  destruct s as [b sc q]. cbn [m_buf m_sc]. intros Z. unfold settle. unfold mbind at 1.
  assert (exists sc1, expire_stale_saved_key (mkMs b sc q) = (mkMs b sc1 q, Ok tt) /\ key_quiet sc1 /\
    sc_st sc1 = sc_st sc /\ sc_cxt sc1 = sc_cxt sc /\ sc_state sc1 = sc_state sc \/
    exists s1, expire_stale_saved_key (mkMs b sc q) = (s1, Err MissingValue)) as (sc1 & [(-> & K & S1 & C1 & T1)|(s1 & ->)]); [| |discriminate].
  { unfold expire_stale_saved_key, key_quiet in *. unfold mbind, get_sc. cbn [m_sc].
    destruct (sc_key sc) as [k|] eqn:SK.
    - match goal with |- context [if ?c then _ else _] => destruct c eqn:CC end.
      + destruct (kp_required (k_possible k)).
        * exists sc. right. eexists. reflexivity.
        * exists (set_key (Some (mkKey KNo (k_stats k))) sc). left. split; [reflexivity|]. cbn. auto.
      + exists sc. left. split; [reflexivity|]. rewrite SK. auto.
    - exists sc. left. rewrite SK. auto. }
  assert (Z1 : zcx (sc_cxt sc1)) by (rewrite C1; exact Z).
  unfold mbind at 1, get_sc at 1. cbn [m_sc]. unfold mbind at 1.
  assert (exists q2 c2, unroll_indent (Some (scol (sc_st sc1))) (mkMs b sc1 q) = (mkMs b (set_cxt c2 sc1) q2, Ok tt) /\
    zcx c2 /\ (is_block c2 = true -> indent_gt (c_indent c2) (Some (scol (sc_st sc1))) = true -> c_indents c2 = [])) as (q2 & c2 & -> & Z2 & D2).
  { pose proof (dec_zcx (sc_cxt sc1) (Some (scol (sc_st sc1))) Z1) as ZD.
    unfold unroll_indent. unfold mbind, get_sc. cbn [m_sc]. unfold indent_decrement in *.
    destruct (is_block (sc_cxt sc1)) eqn:IB.
    - destruct (pop_indents (c_indents (sc_cxt sc1)) (c_indent (sc_cxt sc1)) (Some (scol (sc_st sc1)))) as [[i l] n] eqn:P.
      unfold upd. cbn [m_buf m_sc m_q].
      match goal with |- context [enqueue_ends n ?k ?s0] => destruct (ends_run n k s0) as (q2 & ->) end.
      exists q2, (mkCxt (c_flow (sc_cxt sc1)) i l (c_started (sc_cxt sc1))). split; [reflexivity|]. split; [exact ZD|].
      intros _ G. cbn [c_indent c_indents] in *. apply pops_twice in P. destruct l as [|e r]; [reflexivity|exfalso].
      cbn [pop_indents] in P. rewrite G in P. destruct (pop_indents r (ie_indent e) (Some (scol (sc_st sc1)))) as [[? ?] ?]. congruence.
    - exists q, (sc_cxt sc1). split; [destruct sc1; reflexivity|]. split; [exact Z1|]. congruence. }
  set (sc2 := set_cxt c2 sc1).
  unfold pop_zero_indent_sequence. unfold mbind at 1, get_sc at 1. unfold mbind at 1, get_buf at 1. cbn [m_buf m_sc].
  assert (KQ : key_quiet sc2) by exact K.
  assert (CX : c_indents (sc_cxt sc2) = c_indents c2) by reflexivity.
  destruct (c_indents c2) as [|e r] eqn:CI.
  - rewrite CX. intros Q. assert (sb = mkMs b sc2 q2) as -> by (cbv [mret] in Q; congruence). cbn [m_buf m_sc].
    split; [reflexivity|]. split; [|split; [exact T1|exact Z2]].
    split; [exact KQ|]. split; [apply decq; auto|]. unfold pop_quiet. rewrite CX. exact Logic.I.
  - rewrite CX. match goal with |- context [if ?c then _ else _] => destruct c eqn:CC end.
    + unfold pop_indent. rewrite CX. unfold mbind, upd. cbn [m_buf m_sc m_q].
      match goal with |- context [enqueue_ends 1 ?k ?s0] => destruct (ends_run 1 k s0) as (q3 & ->) end.
      cbn [m_buf m_sc]. set (c3 := mkCxt _ _ _ _). intros Q.
      assert (sb = mkMs b (set_cxt c3 sc2) q3) as -> by congruence. cbn [m_buf m_sc].
      unfold zcx in Z2. rewrite CI in Z2. cbn [zok] in Z2. destruct Z2 as (Z2 & Z3).
      apply andb_true_iff in CC. destruct CC as [CC _]. apply andb_true_iff in CC. destruct CC as [CC _].
      apply andb_true_iff in CC. destruct CC as [_ CC]. destruct (Z2 CC) as (EI & e2 & r2 & ER & EM).
      split; [reflexivity|]. split; [|split; [exact T1|exact Z3]].
      split; [exact KQ|]. split.
      * apply decq. cbn [set_cxt sc_cxt c3 c_indent c_indents sc_st sc2]. intros IB G. exfalso.
        rewrite EI in G. specialize (D2 IB G). discriminate.
      * unfold pop_quiet. cbn [set_cxt sc_cxt c3 c_indents]. rewrite ER, EM. rewrite andb_false_r. reflexivity.
    + intros Q. assert (sb = mkMs b sc2 q2) as -> by (cbv [mret] in Q; congruence). cbn [m_buf m_sc].
      split; [reflexivity|]. split; [|split; [exact T1|exact Z2]].
      split; [exact KQ|]. split; [apply decq; rewrite CX; intros; apply D2; assumption|]. unfold pop_quiet. rewrite CX. exact CC.
Qed.

(** ** White space: done once, done *)
Lemma skips_head c b b1 : skips c b b1 -> b1 <> [] -> is_blank b1 = false /\ is_break b1 = false /\ at_is b1 0 35 = false.
Proof. induction 1; auto; congruence. Qed.
Lemma eat_still o b : valid b -> b <> [] -> is_blank b = false -> is_break b = false -> at_is b 0 35 = false ->
  eat_whitespace o b stats0 true = Ok (b, stats0).
Proof.
  intros V N B K H. destruct (LazyFacts.valid_first b V N) as (x & y & r & E & _ & W & _).
  unfold eat_whitespace, fuel_of. cbn [loop]. unfold eat_ws_body at 1.
  assert (cache o b 1 = Ok tt) as ->.
  { unfold cache. cbn [cache_at]. unfold width_at. rewrite E. cbn [nth_error]. rewrite W. reflexivity. }
  cbn [bind]. rewrite B, K, H. reflexivity.
Qed.
Lemma sc_eat_still o s : valid (m_buf s) -> m_buf s <> [] -> is_blank (m_buf s) = false -> is_break (m_buf s) = false ->
  at_is (m_buf s) 0 35 = false -> sc_eat_whitespace o s = (s, Ok tt).
Proof.
  destruct s as [b sc q]. cbn [m_buf]. intros V N B K H. unfold sc_eat_whitespace.
  unfold mbind, get_buf, mlift. cbn [m_buf]. rewrite eat_still by assumption. cbn [slines stats0 Nat.eqb]. unfold mret.
  unfold advance, consumed. rewrite Nat.sub_diag. unfold mbind, get_buf, mlift, skip. cbn [m_buf is_boundary skipn].
  unfold put_buf, add_st, upd. cbn [m_buf m_sc m_q]. unfold sadd. destruct sc as [a x c st k cx]. destruct st as [rd ln co].
  unfold set_st, supd. cbn. rewrite !Nat.add_0_r. reflexivity.
Qed.

Lemma eat_run o s sa : sc_eat_whitespace o s = (sa, Ok tt) -> skips false (m_buf s) (m_buf sa) /\
  sc_state (m_sc sa) = sc_state (m_sc s).
Proof.
  destruct s as [b sc q]. unfold sc_eat_whitespace. unfold mbind, get_buf, mlift. cbn [m_buf].
  destruct (eat_whitespace o b stats0 true) as [[r d]|e| |] eqn:EW; try discriminate.
  pose proof (eat_ws_skips _ _ _ _ _ EW) as SK. pose proof (eat_ws_leaf o b stats0 true) as LF. rewrite EW in LF. cbn in LF.
  apply reads_consumed in LF. destruct LF as (LF & _).
  destruct (Nat.eqb (slines d) 0); unfold advance, mbind, get_buf, mlift, skip, mret, upd; cbn [m_buf m_sc m_q];
    (destruct (is_boundary b (consumed b r)); [|discriminate]); unfold put_buf, add_st, upd; cbn [m_buf m_sc m_q]; intros Q;
    match type of Q with (?x, _) = _ => assert (sa = x) as -> by congruence end; cbn; rewrite LF; auto.
Qed.
Lemma eat_late o s s1 : sc_eat_whitespace o s = (s1, Err Extend) -> s1 = s.
Proof.
  revert s s1. change (late (sc_eat_whitespace o)). unfold sc_eat_whitespace. apply late_buf. intros b. apply late_lift. intros [r d].
  apply late_calm. unfold advance, add_st. calmy.
Qed.

(** ** Asking for more text and scanning again *)
Lemma retry t n0 lz o o' s s1 : extendable o = true -> lazy_mode o = lz -> lazy_mode o' = lz -> extendable o' = false ->
  cut t (m_buf s) -> zsc (m_sc s) -> sc_state (m_sc s) <> SDone -> scan_next_token o s = (s1, Err Extend) ->
  cut t (m_buf s1) /\ scan_next_token o' (mgrow t n0 lz s1) = scan_next_token o' (mgrow t n0 lz s).
Proof.
  intros E LZ LZ' NX C Z D Q. destruct (sc_state (m_sc s)) eqn:ST; [| |congruence].
  { exfalso. unfold scan_next_token in Q. unfold mbind, get_sc in Q. rewrite ST in Q.
    eapply (calm_use fetch_stream_start); [|exact Q]. unfold fetch_stream_start, enqueue_here. calmy. }
  rewrite round_split in Q by congruence. unfold mbind at 1 in Q.
  destruct (sc_eat_whitespace o s) as [sa [[]|e| |]] eqn:QA; try discriminate.
  2:{ assert (s1 = sa) as -> by congruence. assert (e = Extend) as -> by congruence.
      apply eat_late in QA. subst. auto. }
  pose proof (eat_msim t n0 lz o o' E LZ LZ' NX s C) as MA. unfold msim in MA. rewrite QA in MA. destruct MA as ([] & MA & CA & NA).
  pose proof (eat_run _ _ _ QA) as (SK & TA).
  pose proof (keeps_eat o s Z) as ZA. rewrite QA in ZA. cbn [fst] in ZA.
  destruct (skips_head _ _ _ SK NA) as (HB & HK & HH).
  unfold mbind at 1 in Q. destruct (settle sa) as [sb [[]|e| |]] eqn:QB; try discriminate.
  2:{ exfalso. eapply (calm_use settle); [apply calm_settle|]. rewrite QB. f_equal. congruence. }
  pose proof (settle_msim t n0 lz o o' E LZ LZ' NX sa CA NA) as MB. unfold msim in MB. rewrite QB in MB. destruct MB as ([] & MB & CB & BB).
  destruct (settle_still _ _ ZA QB) as (_ & SB & TB & ZB).
  (* what a quiet state does with the whole text *)
  assert (AGAIN : forall s2, m_buf s2 = m_buf sa -> still (m_buf sa) (m_sc s2) -> sc_state (m_sc s2) = SStream ->
    scan_next_token o' (mgrow t n0 lz s2) = tail_of o' (mgrow t n0 lz s2)).
  { intros s2 B2 S2 T2. rewrite round_split by (cbn; congruence).
    assert (cut t (m_buf s2)) as C2 by (rewrite B2; exact CA).
    assert (sc_eat_whitespace o' (mgrow t n0 lz s2) = (mgrow t n0 lz s2, Ok tt)) as EAT.
    { apply sc_eat_still; cbn [mgrow m_buf]; rewrite B2.
      - apply valid_app; apply CA.
      - destruct (m_buf sa); [congruence|discriminate].
      - rewrite is_blank_app by exact NA. exact HB.
      - rewrite is_break_app by assumption. exact HK.
      - rewrite at_is_app by (destruct (m_buf sa); [congruence|cbn; lia]). exact HH. }
    unfold mbind at 1. rewrite EAT. unfold mbind at 1. rewrite still_settle; [reflexivity|].
    cbn [mgrow m_buf m_sc]. rewrite B2. unfold still. rewrite at_is_app by (destruct (m_buf sa); [congruence|cbn; lia]). exact S2. }
  assert (FULL : scan_next_token o' (mgrow t n0 lz s) = tail_of o' (mgrow t n0 lz sb)).
  { rewrite round_split by (cbn; congruence). unfold mbind at 1. rewrite MA. unfold mbind at 1. rewrite MB. reflexivity. }
  assert (sc_state (m_sc sb) = SStream) as TB' by congruence.
  assert (m_buf sb <> []) as NB by congruence.
  rewrite FULL. unfold tail_of at 1 in Q. unfold mbind at 1, get_buf at 1 in Q. unfold mbind at 1, get_sc at 1 in Q.
  rewrite TB' in Q. replace (is_empty (m_buf sb) || false) with false in Q by (destruct (m_buf sb); [congruence|reflexivity]).
  unfold mbind at 1 in Q. unfold mlift at 1 in Q. destruct (cache o (m_buf sb) 4) as [[]|e| |] eqn:QC; try discriminate.
  2:{ assert (s1 = sb) as -> by congruence. split; [exact CB|]. apply AGAIN; [exact BB|exact SB|exact TB']. }
  destruct (dispatch_late _ _ _ Q) as [->|(fold & QF & HD & IB)].
  { split; [exact CB|]. apply AGAIN; [exact BB|exact SB|exact TB']. }
  destruct (block_late _ _ _ _ QF) as (-> & KR). cbn [m_buf]. split; [exact CB|].
  rewrite AGAIN; [|exact BB| |exact TB'].
  2:{ destruct SB as (_ & DQ & PQ). split; [exact Logic.I|]. split; [exact DQ|exact PQ]. }
  (* the tail takes the block scalar branch in both *)
  pose proof (cache_sim t o o' E (m_buf sb) 4) as CS. rewrite QC in CS. destruct CS as [[]|([] & CS & L4)].
  assert (TAIL : forall sc q, sc_state sc = SStream -> sc_cxt sc = sc_cxt (m_sc sb) ->
    tail_of o' (mkMs (m_buf sb ++ t) sc q) = fetch_block_scalar o' fold (mkMs (m_buf sb ++ t) sc q)).
  { intros sc q T CX. unfold tail_of. unfold mbind at 1, get_buf at 1. unfold mbind at 1, get_sc at 1. cbn [m_buf m_sc].
    rewrite T. replace (is_empty (m_buf sb ++ t) || false) with false by (destruct (m_buf sb); [congruence|reflexivity]).
    unfold mbind at 1, mlift at 1. rewrite CS. unfold dispatch. unfold mbind at 1, get_buf at 1. unfold mbind at 1, get_sc at 1.
    cbn [m_buf m_sc]. rewrite CX, IB. clear - HD IB. destruct (m_buf sb) as [|x r]; [destruct fold; discriminate|].
    unfold at_is in *. cbn [nth_error app] in *. destruct fold; apply N.eqb_eq in HD; subst x; reflexivity. }
  unfold mgrow. cbn [m_buf m_sc m_q]. rewrite TAIL by (first [exact TB'|reflexivity]). rewrite TAIL by (first [exact TB'|reflexivity]).
  unfold fetch_block_scalar, remove_saved_key. unfold mbind, get_buf, get_sc, upd, mlift, mret. cbn [m_buf m_sc m_q].
  destruct (m_sc sb) as [a x c st k cx]. cbn [sc_key set_offset set_ska set_key sc_st sc_cxt sc_state sc_ska sc_offset] in *.
  destruct k as [k|]; [rewrite (KR k eq_refl)|]; reflexivity.
Qed.
