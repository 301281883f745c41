(** Cut texts: sequences of rounds. *)
From Verif Require Import QuotedFacts FlowFacts Contract StreamFacts.
From Verif Require Import Scanner CutFacts CutLeaf CutScalar CutBlock CutScan.
From Coq Require Import Lia ZifyBool ZifyN ZifyNat.
Open Scope nat_scope.

(** ** The offset plays no role in a round *)
Definition offs (lz : bool) (n : nat) (s : ms) : ms := mkMs (m_buf s) (set_offset n (m_sc s)) (qseal lz (m_q s)).
Definition far (lz : bool) {A} (m : M A) : Prop := forall s n, m (offs lz n s) = (offs lz n (fst (m s)), snd (m s)).
Section Far.
  Variable lz : bool.
Lemma far_bind {A B} (m : M A) (k : A -> M B) : far lz m -> (forall a, far lz (k a)) -> far lz (mbind m k).
Proof.
  intros H K s n. unfold mbind. rewrite H. destruct (m s) as [s1 [a|e| |]]; cbn [fst snd]; try reflexivity. apply K.
Qed.
Lemma far_get {A} (k : scanner -> M A) : (forall sc n, k (set_offset n sc) = k sc) -> (forall sc, far lz (k sc)) -> far lz (mbind get_sc k).
Proof. intros I H s n. unfold mbind, get_sc. cbn [m_sc offs]. rewrite I. apply H. Qed.
Lemma far_buf {A} (k : str -> M A) : (forall b, far lz (k b)) -> far lz (mbind get_buf k).
Proof. intros H s n. apply H. Qed.
Lemma far_lift {A} (r : sres A) : far lz (mlift r). Proof. intros s n. reflexivity. Qed.
Lemma far_ret {A} (a : A) : far lz (mret a). Proof. intros s n. reflexivity. Qed.
Lemma far_put b : far lz (put_buf b). Proof. intros s n. reflexivity. Qed.
Lemma far_enqueue x r : lz = false \/ firm x -> far lz (enqueue x r).
Proof.
  intros H s n. unfold enqueue, offs. cbn [fst snd m_buf m_sc m_q]. rewrite qseal_push, eseal_entry.
  replace (tseal lz x) with x; [reflexivity|]. destruct H as [->|H]; [reflexivity|symmetry; apply firm_tseal, H].
Qed.
Lemma far_liftk {A B} (r : sres A) (k : A -> M B) : (forall a, r = Ok a -> far lz (k a)) -> far lz (mbind (mlift r) k).
Proof. intros K s n. unfold mbind, mlift. destruct r as [a|e| |]; cbn [fst snd]; try reflexivity. apply K. reflexivity. Qed.
Lemma far_upd f : (forall sc n, f (set_offset n sc) = set_offset n (f sc)) -> far lz (upd f).
Proof. intros H s n. unfold upd. cbn. rewrite H. reflexivity. Qed.
Lemma far_ends n k : far lz (enqueue_ends n k).
Proof. induction n; cbn [enqueue_ends]; [apply far_ret|apply far_bind; [apply far_enqueue; right; exact Logic.I|intros _; exact IHn]]. Qed.
End Far.
Ltac fars :=
  repeat first
    [ apply far_ends | progress cbv zeta | apply far_lift | apply far_ret | apply far_enqueue; first [right; exact Logic.I|assumption] | apply far_put
    | apply far_upd; reflexivity
    | apply far_get; [reflexivity|intros ?]
    | apply far_buf; intros ?
    | apply far_bind; [|intros ?]
    | match goal with |- far _ (if ?c then _ else _) => destruct c end
    | match goal with |- far _ (match ?c with _ => _ end) => destruct c end ].
Lemma far_roll lz a b c m : far lz (roll_indent a b c m). Proof. unfold roll_indent. cbv zeta. fars. Qed.
Lemma scalar_firm o b st single x n d : scan_flow_scalar o b st single = Ok (x, n, d) -> firm x.
Proof.
  unfold scan_flow_scalar. destruct (lazy_mode o); intros H; apply bind_inv in H as ([[? ?] ?] & Q & H); inversion H; subst; [|exact Logic.I].
  exact (flow_firm _ _ _ _ _ _ _ Q).
Qed.
Lemma word_firm o b st c x n d : scan_plain_scalar o b st c = Ok (x, n, d) -> firm x.
Proof.
  unfold scan_plain_scalar. cbv zeta. destruct (lazy_mode o); intros H; apply bind_inv in H as ([[? ?] ?] & Q & H); inversion H; subst; [|exact Logic.I].
  exact (plain_firm _ _ _ _ _ _ _ _ Q).
Qed.
Lemma text_firm o b st i k x n d : extendable o = false -> scan_block_scalar o b st i k = Ok (x, n, d) -> firm x.
Proof.
  unfold scan_block_scalar. cbv zeta. intros X. destruct (lazy_mode o); intros H; apply bind_inv in H as ([[? ?] ?] & Q & H); inversion H; subst; [|exact Logic.I].
  exact (block_firm _ _ _ _ _ _ _ _ X Q).
Qed.
Lemma far_round o lz : lz = false \/ extendable o = false -> far lz (scan_next_token o).
Proof.
  intros OX.
  unfold scan_next_token. apply far_get; [reflexivity|]. intros sc.
  assert (far lz (sc_eat_whitespace o ;; expire_stale_saved_key ;;
      do sc <- get_sc; unroll_indent (Some (scol (sc_st sc))) ;; pop_zero_indent_sequence ;;
      do b <- get_buf; do sc <- get_sc;
      if is_empty b || match sc_state sc with SDone => true | _ => false end
      then fetch_stream_end else mlift (cache o b 4) ;; dispatch o)) as H.
  { apply far_bind; [unfold sc_eat_whitespace; fars|intros _]. apply far_bind; [unfold expire_stale_saved_key; fars|intros _].
    apply far_get; [reflexivity|]. intros sc1. apply far_bind; [unfold unroll_indent; fars|intros _].
    apply far_bind; [unfold pop_zero_indent_sequence; fars|intros _].
    apply far_buf. intros b. apply far_get; [reflexivity|]. intros sc2.
    match goal with |- context [if ?c then _ else _] => destruct c end.
    - unfold fetch_stream_end. apply far_get; [reflexivity|]. intros sc3. apply far_buf. intros b3.
      destruct (sc_state sc3); [|  |apply far_ret]; (destruct (is_empty b3); [|apply far_ret]);
      (apply far_bind; [unfold unroll_indent; fars|intros _; fars]).
    - apply far_bind; [apply far_lift|intros _]. unfold dispatch. apply far_buf. intros b4.
      apply far_get; [reflexivity|]. intros sc4. cbv zeta.
      repeat match goal with |- context [if ?c then _ else _] => destruct c end.
      + unfold fetch_directive. apply far_buf. intros b5. destruct (negb (at_is b5 0 37)); [fars|].
        apply far_bind; [fars|intros _]. apply far_bind; [fars|intros ?]. apply far_bind; [fars|intros ?].
        apply far_bind; [fars|intros [? ?]]. apply far_bind; [fars|intros [[? ?] ?]].
        apply far_bind; [unfold unroll_indent; fars|intros _; fars].
      + unfold fetch_document_marker. apply far_bind; [unfold unroll_indent; fars|intros _; fars].
      + unfold fetch_flow_collection_start. fars.
      + unfold fetch_flow_collection_end. apply far_bind; [unfold remove_saved_key; fars|intros _].
        apply far_get; [reflexivity|]. intros sc5. apply far_bind; [apply far_lift|intros ?]. fars.
      + unfold fetch_flow_collection_entry. fars.
      + unfold fetch_block_collection_entry. apply far_get; [reflexivity|]. intros sc5. cbv zeta.
        apply far_bind; [destruct (is_block (sc_cxt sc5) && sc_ska sc5); [apply far_roll|fars]|intros _; fars].
      + unfold fetch_explicit_key. apply far_get; [reflexivity|]. intros sc5. cbv zeta.
        apply far_bind; [destruct (is_block (sc_cxt sc5)); [destruct (negb (sc_ska sc5)); [fars|apply far_roll]|fars]|intros _; fars].
      + unfold fetch_value. apply far_get; [reflexivity|]. intros sc5. cbv zeta.
        apply far_bind; [fars|intros _]. apply far_bind; [|intros _; fars].
        assert (far lz ((if is_block (sc_cxt sc5) then if negb (sc_ska sc5) then mlift (Err InvalidValue)
          else roll_indent (sread (sc_st sc5)) (slines (sc_st sc5)) (scol (sc_st sc5)) true else mret tt) ;;
          upd (set_ska (is_block (sc_cxt sc5))))) as OT.
        { apply far_bind; [|intros _; fars].
          destruct (is_block (sc_cxt sc5)); [destruct (negb (sc_ska sc5)); [fars|apply far_roll]|fars]. }
        destruct (sc_key sc5) as [k|]; [|exact OT]. destruct (kp_allowed (k_possible k)); [|exact OT].
        apply far_bind; [apply far_roll|intros _; fars].
      + unfold fetch_anchor. fars.
      + unfold fetch_tag. fars.
      + unfold fetch_block_scalar. apply far_buf. intros b5. apply far_get; [reflexivity|]. intros sc5. cbv zeta.
        apply far_bind; [unfold remove_saved_key; fars|intros _]. apply far_bind; [fars|intros _]. apply far_liftk. intros [[x n] d] Q.
        assert (lz = false \/ firm x) by (destruct OX as [X|X]; [left; exact X|right; eapply text_firm; eauto]). fars.
      + unfold fetch_flow_scalar. apply far_buf. intros b5. match goal with |- context [if ?c then _ else _] => destruct c end; [|fars].
        apply far_liftk. intros [[x n] d] Q.
        assert (lz = false \/ firm x) by (right; eapply scalar_firm; eauto). fars.
      + unfold fetch_plain_scalar. apply far_buf. intros b5. apply far_get; [reflexivity|]. intros sc5.
        apply far_liftk. intros [[x n] d] Q.
        assert (lz = false \/ firm x) by (right; eapply word_firm; eauto). fars.
      + fars. }
  destruct (sc_state sc); [unfold fetch_stream_start; fars|exact H|exact H].
Qed.
Lemma round_offset o s : sc_offset (m_sc (fst (scan_next_token o s))) = sc_offset (m_sc s).
Proof.
  pose proof (far_round o false (or_introl eq_refl) s (sc_offset (m_sc s))) as H.
  replace (offs false (sc_offset (m_sc s)) s) with s in H by (destruct s as [b [? ? ? ? ? ?] q]; reflexivity).
  rewrite H. reflexivity.
Qed.

(** ** A round moves forward in the text *)
Definition suffix_of (a b : str) : Prop := exists n, b = skipn n a /\ is_boundary a n = true.
Lemma suffix_refl a : suffix_of a a. Proof. exists 0. auto. Qed.
Lemma suffix_trans a b c : suffix_of a b -> suffix_of b c -> suffix_of a c.
Proof.
  intros (n & -> & B) (m & -> & B'). exists (n + m). split; [apply skipn_skipn|apply boundary_add; assumption].
Qed.
Definition slides {A} (m : M A) : Prop := forall s, suffix_of (m_buf s) (m_buf (fst (m s))).
Lemma slides_bind {A B} (m : M A) (k : A -> M B) : slides m -> (forall a, slides (k a)) -> slides (mbind m k).
Proof.
  intros H K s. unfold mbind. specialize (H s). destruct (m s) as [s1 [a|e| |]]; cbn [fst] in *; auto.
  eapply suffix_trans; [exact H|apply K].
Qed.
Lemma slides_blind {A} (m : M A) : blind m -> slides m.
Proof.
  intros H [b sc q]. destruct (H b sc q) as (sc1 & q1 & x & E & _). rewrite E. apply suffix_refl.
Qed.
Lemma slides_get {A} (k : scanner -> M A) : (forall sc, slides (k sc)) -> slides (mbind get_sc k).
Proof. intros H s. apply H. Qed.
Lemma slides_buf {A} (k : str -> M A) : (forall b, slides (k b)) -> slides (mbind get_buf k).
Proof. intros H s. apply H. Qed.
Lemma slides_lift {A} (r : sres A) : slides (mlift r). Proof. intros s. apply suffix_refl. Qed.
Lemma slides_ret {A} (a : A) : slides (mret a). Proof. intros s. apply suffix_refl. Qed.
Lemma slides_enqueue x r : slides (enqueue x r). Proof. intros s. apply suffix_refl. Qed.
Lemma slides_upd f : slides (upd f). Proof. intros s. apply suffix_refl. Qed.
Lemma slides_advance n : slides (advance n).
Proof.
  intros s. unfold advance, mbind, get_buf, mlift, skip. destruct (is_boundary (m_buf s) n) eqn:B; cbn; [|apply suffix_refl].
  exists n. auto.
Qed.
Lemma slides_ends n k : slides (enqueue_ends n k). Proof. apply slides_blind, blind_ends. Qed.
Ltac slide :=
  repeat first
    [ apply slides_advance | progress cbv zeta | apply slides_ends | apply slides_lift | apply slides_ret | apply slides_enqueue | apply slides_upd
    | apply slides_get; intros ? | apply slides_buf; intros ? | apply slides_bind; [|intros ?]
    | match goal with |- slides (if ?c then _ else _) => destruct c end
    | match goal with |- slides (match ?c with _ => _ end) => destruct c end ].
Lemma slides_round o : slides (scan_next_token o).
Proof.
  unfold scan_next_token. apply slides_get. intros sc.
  assert (slides (sc_eat_whitespace o ;; expire_stale_saved_key ;;
      do sc <- get_sc; unroll_indent (Some (scol (sc_st sc))) ;; pop_zero_indent_sequence ;;
      do b <- get_buf; do sc <- get_sc;
      if is_empty b || match sc_state sc with SDone => true | _ => false end
      then fetch_stream_end else mlift (cache o b 4) ;; dispatch o)) as H.
  { apply slides_bind; [unfold sc_eat_whitespace; slide|intros _]. apply slides_bind; [apply slides_blind, blind_expire|intros _].
    apply slides_get. intros sc1. apply slides_bind; [apply slides_blind, blind_unroll|intros _].
    apply slides_bind; [unfold pop_zero_indent_sequence; slide|intros _].
    apply slides_buf. intros b. apply slides_get. intros sc2.
    match goal with |- context [if ?c then _ else _] => destruct c end.
    - unfold fetch_stream_end. apply slides_get. intros sc3. apply slides_buf. intros b3.
      destruct (sc_state sc3); [|  |apply slides_ret]; (destruct (is_empty b3); [|apply slides_ret]);
      (apply slides_bind; [apply slides_blind, blind_unroll|intros _; slide]).
    - apply slides_bind; [apply slides_lift|intros _]. unfold dispatch. apply slides_buf. intros b4.
      apply slides_get. intros sc4. cbv zeta.
      repeat match goal with |- context [if ?c then _ else _] => destruct c end.
      + unfold fetch_directive. apply slides_buf. intros b5. destruct (negb (at_is b5 0 37)); [slide|].
        apply slides_bind; [slide|intros _]. apply slides_bind; [slide|intros ?]. apply slides_bind; [slide|intros ?].
        apply slides_bind; [slide|intros [? ?]]. apply slides_bind; [slide|intros [[? ?] ?]].
        apply slides_bind; [apply slides_blind, blind_unroll|intros _; slide].
      + unfold fetch_document_marker. apply slides_bind; [apply slides_blind, blind_unroll|intros _; slide].
      + unfold fetch_flow_collection_start. slide.
      + unfold fetch_flow_collection_end. slide.
      + unfold fetch_flow_collection_entry. slide.
      + unfold fetch_block_collection_entry. apply slides_get. intros sc5. cbv zeta.
        apply slides_bind; [destruct (is_block (sc_cxt sc5) && sc_ska sc5); [apply slides_blind, blind_roll|slide]|intros _; slide].
      + unfold fetch_explicit_key. apply slides_get. intros sc5. cbv zeta.
        apply slides_bind; [destruct (is_block (sc_cxt sc5)); [destruct (negb (sc_ska sc5)); [slide|apply slides_blind, blind_roll]|slide]|intros _; slide].
      + unfold fetch_value. apply slides_get. intros sc5. cbv zeta.
        apply slides_bind; [slide|intros _]. apply slides_bind; [|intros _; slide].
        assert (slides ((if is_block (sc_cxt sc5) then if negb (sc_ska sc5) then mlift (Err InvalidValue)
          else roll_indent (sread (sc_st sc5)) (slines (sc_st sc5)) (scol (sc_st sc5)) true else mret tt) ;;
          upd (set_ska (is_block (sc_cxt sc5))))) as OT.
        { apply slides_bind; [|intros _; slide].
          destruct (is_block (sc_cxt sc5)); [destruct (negb (sc_ska sc5)); [slide|apply slides_blind, blind_roll]|slide]. }
        destruct (sc_key sc5) as [k|]; [|exact OT]. destruct (kp_allowed (k_possible k)); [|exact OT].
        apply slides_bind; [apply slides_blind, blind_roll|intros _; slide].
      + unfold fetch_anchor. slide.
      + unfold fetch_tag. slide.
      + unfold fetch_block_scalar. slide.
      + unfold fetch_flow_scalar. slide.
      + unfold fetch_plain_scalar. slide.
      + slide. }
  destruct (sc_state sc); [unfold fetch_stream_start; slide|exact H|exact H].
Qed.

(** ** One round over part of a text *)
Lemma noret_suffix a b : suffix_of a b -> noret a -> noret b.
Proof. intros (n & -> & _). apply noret_skipn. Qed.
Lemma slides_eat o : slides (sc_eat_whitespace o).
Proof. unfold sc_eat_whitespace. slide. Qed.
Lemma round_grow t n0 lz o o' s : extendable o = true -> lazy_mode o = lz -> lazy_mode o' = lz -> extendable o' = false ->
  cut t (m_buf s) -> zsc (m_sc s) -> sc_state (m_sc s) <> SDone -> (lz = true -> noret (m_buf s)) ->
  msim t n0 lz any (scan_next_token o) (scan_next_token o') s.
Proof.
  intros E LZ LZ' NX C Z D NR. destruct (sc_state (m_sc s)) eqn:ST; [| |congruence].
  { unfold scan_next_token. apply msim_get_sc; [reflexivity|]. rewrite ST. apply msim_any; [apply blind_start|exact C]. }
  unfold msim. rewrite !round_split by (cbn; congruence). unfold mbind at 1.
  pose proof (eat_msim t n0 lz o o' E LZ LZ' NX s C) as MA. unfold msim in MA.
  destruct (sc_eat_whitespace o s) as [sa [[]|e| |]] eqn:QA.
  2:{ destruct e; try exact Logic.I; unfold mbind at 1; rewrite MA; reflexivity. }
  2:{ unfold mbind at 1; rewrite MA; reflexivity. }
  2:{ exact Logic.I. }
  destruct MA as ([] & MA & CA & NA).
  pose proof (eat_run _ _ _ QA) as (SK & TA). pose proof (slides_eat o s) as SE. rewrite QA in SE. cbn [fst] in SE.
  pose proof (keeps_eat o s Z) as ZA. rewrite QA in ZA. cbn [fst] in ZA.
  unfold mbind at 1.
  pose proof (settle_msim t n0 lz o o' E LZ LZ' NX sa CA NA) as MB. unfold msim in MB.
  destruct (settle sa) as [sb [[]|e| |]] eqn:QB.
  2:{ destruct e; try exact Logic.I; unfold mbind at 1; rewrite MA; unfold mbind at 1; rewrite MB; reflexivity. }
  2:{ unfold mbind at 1; rewrite MA; unfold mbind at 1; rewrite MB; reflexivity. }
  2:{ exact Logic.I. }
  destruct MB as ([] & MB & CB & BB).
  destruct (settle_still _ _ ZA QB) as (_ & SB & TB & ZB).
  assert (mbind (sc_eat_whitespace o') (fun _ => mbind settle (fun _ => tail_of o')) (mgrow t n0 lz s) = tail_of o' (mgrow t n0 lz sb)) as ->.
  { unfold mbind at 1. rewrite MA. unfold mbind at 1. rewrite MB. reflexivity. }
  apply (tail_msim t n0 lz o o' E LZ LZ' NX sb CB); try congruence.
  intros Y. rewrite BB. eapply noret_suffix; [exact SE|auto].
Qed.

(** What every round does, whatever the flags. *)
Lemma round_facts o s s1 r : valid (m_buf s) -> sc_state (m_sc s) <> SDone -> scan_next_token o s = (s1, r) ->
  suffix_of (m_buf s) (m_buf s1) /\ sc_offset (m_sc s1) = sc_offset (m_sc s) /\ (zsc (m_sc s) -> zsc (m_sc s1)) /\
  q_len (m_q s) <= q_len (m_q s1) /\ r <> Fuel /\
  (r = Ok tt -> q_len (m_q s) < q_len (m_q s1) /\ left_to_do (m_buf s1) (m_sc s1) < left_to_do (m_buf s) (m_sc s)) /\
  (r = Err Extend -> extendable o = true /\ sc_state (m_sc s1) = sc_state (m_sc s)).
Proof.
  intros V D Q. pose proof (slides_round o s) as SL. pose proof (round_offset o s) as RO. pose proof (keeps_round o s) as KR.
  rewrite Q in SL, RO, KR. cbn [fst] in *. split; [exact SL|]. split; [exact RO|]. split; [exact KR|].
  destruct s as [b sc q]. destruct (wp_round o b sc V D) as (es & b' & sc' & r' & EQ & O). rewrite EQ in Q.
  assert (r' = r) as -> by congruence. assert (s1 = mkMs b' sc' (pushes es q)) as -> by congruence. cbn [m_buf m_sc m_q].
  rewrite pushes_len. split; [lia|]. split; [intros ->; exact O|]. split.
  - intros ->. cbn in O. pose proof (round_some _ _ _ _ _ _ O) as NE. split; [destruct es; [congruence|cbn; lia]|].
    eapply round_less; eauto.
  - intros ->. cbn in O. destruct (O eq_refl) as (EX & QT). split; [exact EX|]. apply (quiet_state _ _ _ _ _ QT).
Qed.
