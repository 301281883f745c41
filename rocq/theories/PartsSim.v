(** Documents do not depend on what came before their marker. *)
From Verif Require Import StreamFacts GapFacts Utf8Facts.
From Verif Require Export Parts SpecParts.
From Coq Require Import Lia ZifyBool ZifyN ZifyNat.
Open Scope nat_scope.

(** ** The counter of the queue does not matter *)
Definition twin (o : flags) (t : str) (r r' : reader) : Prop :=
  r_in r = Borrow t /\ r_in r' = Borrow t /\ no_extend (r_opts r) = o /\ r_opts r' = r_opts r /\
  r_sc r' = r_sc r /\ (exists h, good o t h (r_sc r)) /\
  exists l, holds entry (r_q r) l /\ holds entry (r_q r') l.
Definition end_twin (o : flags) (t : str) (x x' : rres reader) : Prop :=
  match x, x' with
  | Ok r, Ok r' => twin o t r r'
  | Err e, Err e' => e = e'
  | Panic, Panic => True
  | _, _ => False
  end.
Lemma consumes_twin o t : extendable o = false -> forall s r r', twin o t r r' ->
  fst (consumes r' s) = fst (consumes r s) /\ end_twin o t (snd (consumes r s)) (snd (consumes r' s)).
Proof.
  intros NE. induction s as [|[] s IH]; intros r r' TW; cbn [consumes].
  - auto.
  - destruct TW as (I & I' & O & O' & C & (h & G) & l & H & H').
    pose proof (good_step o t h (r_sc r) NE G) as SS. destruct (batch o t (r_sc r)) as [[es sc'] x] eqn:EB. destruct SS as [SE SO].
    unfold reader_scan, drive. rewrite I, I', O', O, C, !SE.
    destruct x as [[]|e| |]; cbn [map_err].
    + apply IH. unfold twin. cbn [r_in r_opts r_sc r_q]. repeat (split; [first [reflexivity|assumption]|]).
      split; [exists (h ++ es); apply SO|]. exists (l ++ es). split; apply holds_pushes; assumption.
    + split; [reflexivity|]. cbn. reflexivity.
    + split; [reflexivity|]. exact Logic.I.
    + destruct SO.
  - destruct TW as (I & I' & O & O' & C & G & l & H & H').
    pose proof (holds_pop entry entry_cmp entry_order _ _ H) as P. pose proof (holds_pop entry entry_cmp entry_order _ _ H') as P'.
    destruct (q_pop entry_cmp (r_q r)) as [e q1], (q_pop entry_cmp (r_q r')) as [e' q1'].
    assert (X : e' = e /\ exists l1, holds entry q1 l1 /\ holds entry q1' l1).
    { destruct e as [e|], e' as [e'|].
      - destruct P as (l1 & TK & HQ), P' as (l1' & TK' & HQ').
        destruct (takes_unique entry entry_cmp entry_order _ _ _ _ _ TK TK') as [-> ->]. eauto.
      - destruct P as (l1 & TK & HQ), P' as (-> & ->). exfalso. apply takes_isort in TK. discriminate.
      - destruct P' as (l1 & TK & HQ), P as (-> & ->). exfalso. apply takes_isort in TK. discriminate.
      - destruct P as (-> & ->), P' as (_ & ->). split; [reflexivity|]. exists []. auto. }
    destruct X as (-> & l1 & HQ & HQ').
    assert (TW : twin o t (mkReader (r_sc r) q1 (r_opts r) (r_exhausted r) (r_in r)) (mkReader (r_sc r') q1' (r_opts r') (r_exhausted r') (r_in r'))).
    { unfold twin. cbn [r_in r_opts r_sc r_q]. repeat (split; [first [reflexivity|assumption]|]). eauto. }
    specialize (IH _ _ TW). destruct (consumes (mkReader (r_sc r) _ _ _ _) s) as [l2 x2], (consumes (mkReader (r_sc r') _ _ _ _) s) as [l2' x2'].
    cbn [fst snd] in *. destruct IH as [-> IH]. split; [reflexivity|exact IH].
Qed.
Lemma twin_quiet o t r r' : extendable o = false -> twin o t r r' -> quiet_reader r -> quiet_reader r'.
Proof.
  intros NE TW Q s E. destruct (consumes_twin o t NE s r r' TW) as [_ X]. specialize (Q s). rewrite E in X. destruct (snd (consumes r s)); try contradiction.
Qed.

(** The reader with a new queue. *)
Definition renew (r : reader) : reader := mkReader (r_sc r) q_new (r_opts r) (r_exhausted r) (r_in r).
Lemma renew_twin o t r : r_in r = Borrow t -> no_extend (r_opts r) = o -> (exists h, good o t h (r_sc r)) -> q_heap (r_q r) = [] ->
  twin o t r (renew r).
Proof.
  intros I O G Q. unfold twin, renew. cbn [r_in r_opts r_sc r_q]. repeat (split; [first [reflexivity|assumption]|]).
  exists []. split; [|apply holds_new]. exists []. rewrite Q. repeat split; constructor.
Qed.
Lemma ready_heap r : nothing_ready r <-> q_heap (r_q r) = [].
Proof.
  unfold nothing_ready. cbn [consumes]. unfold q_pop. destruct (q_heap (r_q r)) as [|x l]; [split; reflexivity|].
  destruct (extract entry entry_cmp x l) as [m r0]. cbn. split; discriminate.
Qed.
Lemma same_end_twin {o t} (x1 x2 x3 x4 : rres reader) o' t' : end_twin o t x1 x2 -> same_end x2 x3 -> end_twin o' t' x4 x3 -> same_end x1 x4.
Proof. destruct x1, x2, x3, x4; cbn; intuition congruence. Qed.

(** ** After two markers *)
Lemma opens_count l : opens_block l <-> 0 < count block_open l.
Proof.
  unfold opens_block, count. split.
  - intros (e & I & B). destruct (filter _ l) as [|x r] eqn:E; [|cbn; lia].
    assert (X : In e (filter (fun e => block_open (e_marker e)) l)) by (apply filter_In; auto). rewrite E in X. destruct X.
  - intros L. destruct (filter _ l) as [|x r] eqn:E; [cbn in L; lia|]. exists x.
    apply (filter_In (fun e => block_open (e_marker e))). rewrite E. left. reflexivity.
Qed.
Lemma marks_docmark m : marks_document m -> docmark (e_marker m) = true.
Proof. unfold marks_document. intros [E|E]; rewrite E; reflexivity. Qed.
Lemma opened_same l l' : (opens_block l <-> opens_block l') -> Nat.ltb 0 (count block_open l) = Nat.ltb 0 (count block_open l').
Proof. rewrite !opens_count. intros H. destruct (Nat.ltb_spec 0 (count block_open l)), (Nat.ltb_spec 0 (count block_open l')); tauto || lia. Qed.
Lemma no_flow_block c : c_flow c = 0 -> is_block c = true.
Proof. unfold is_block, is_flow. intros ->. reflexivity. Qed.

(** Later tokens stand no further back. *)
Lemma later_tokens t o s1 l m r s : valid t -> consumes (open t o) s1 = (l ++ [m], Ok r) ->
  Forall (fun e => e_read m <= e_read e) (fst (consumes r s)).
Proof.
  intros V E. destruct (consumes r s) as [l2 x] eqn:E2. cbn [fst].
  assert (E3 : consumes (open t o) (s1 ++ s) = ((l ++ [m]) ++ l2, x)) by (rewrite consumes_app, E, E2; reflexivity).
  pose proof (consumes_history o t _ _ _ V E3) as H.
  destruct (calls (no_extend o) t (fills (s1 ++ s))) as [[h sc] y]. destruct H as ((rst & H) & _).
  pose proof (isort_ordered h) as O. rewrite H in O. apply ordered_app in O as (O & _). rewrite <- app_assoc in O.
  apply ordered_app in O as (_ & O & _). inversion O; subst. assumption.
Qed.
Lemma Forall2_add {A B} (P : A -> B -> Prop) (Q : A -> Prop) (R : B -> Prop) l l' : Forall2 P l l' -> Forall Q l -> Forall R l' ->
  Forall2 (fun a b => P a b /\ Q a /\ R b) l l'.
Proof. induction 1; intros F G; inversion F; inversion G; subst; constructor; auto. Qed.

Lemma after_markers a1 a2 t o s1 s2 l1 l2 m1 m2 r1 r2 :
  well_formed (a1 ++ t) -> well_formed (a2 ++ t) -> well_formed t ->
  consumes (open (a1 ++ t) o) s1 = (l1 ++ [m1], Ok r1) -> consumes (open (a2 ++ t) o) s2 = (l2 ++ [m2], Ok r2) ->
  marks_document m1 -> marks_document m2 -> nothing_ready r1 -> nothing_ready r2 ->
  sc_offset (r_sc r1) = List.length a1 -> sc_offset (r_sc r2) = List.length a2 ->
  flows_closed l1 -> flows_closed l2 -> (opens_block l1 <-> opens_block l2) ->
  forall s, Forall2 (moved (e_read m1) (e_read m2)) (fst (consumes r1 s)) (fst (consumes r2 s)) /\
    same_end (snd (consumes r1 s)) (snd (consumes r2 s)).
Proof.
  intros V1 V2 VT E1 E2 M1 M2 N1 N2 O1 O2 F1 F2 OB s. apply valid_iff in V1, V2, VT. apply ready_heap in N1, N2.
  assert (CM : forall l m (f : marker -> bool), marks_document m -> f MDocumentStart = false -> f MDocumentEnd = false -> count f (l ++ [m]) = count f l).
  { intros l m f M A B. rewrite count_app, count_cons. change (count f []) with 0. destruct M as [M|M]; rewrite M, ?A, ?B; lia. }
  destruct (parts_reader _ _ _ _ _ _ V1 E1 (marks_docmark _ M1) N1) as (A1 & A2 & A3 & A4 & A0 & A5 & A6 & A7 & A8 & A9 & A10 & A11 & A12).
  destruct (parts_reader _ _ _ _ _ _ V2 E2 (marks_docmark _ M2) N2) as (B1 & B2 & B3 & B4 & B0 & B5 & B6 & B7 & B8 & B9 & B10 & B11 & B12).
  rewrite !CM in A8, B8 by auto. rewrite (CM l1 m1 flow_close), (CM l1 m1 flow_open) in A9 by auto. rewrite (CM l2 m2 flow_close), (CM l2 m2 flow_open) in B9 by auto. unfold flows_closed in F1, F2.
  assert (FA : c_flow (sc_cxt (r_sc r1)) = 0) by lia. assert (FB : c_flow (sc_cxt (r_sc r2)) = 0) by lia.
  specialize (A6 (no_flow_block _ FA)). specialize (B6 (no_flow_block _ FB)). rewrite A6 in A7. rewrite B6 in B7. cbn [ground] in A7, B7.
  destruct (reach_own _ _ _ _ _ V1 E1) as (_ & _ & _ & Q1 & OP1). destruct (reach_own _ _ _ _ _ V2 E2) as (_ & _ & _ & Q2 & OP2).
  pose proof (renew_twin _ _ _ A10 A11 A12 N1) as T1. pose proof (renew_twin _ _ _ B10 B11 B12 N2) as T2.
  pose proof (twin_quiet (no_extend o) _ _ _ eq_refl T1 Q1) as Q1'. pose proof (twin_quiet (no_extend o) _ _ _ eq_refl T2 Q2) as Q2'.
  destruct (consumes_twin (no_extend o) _ eq_refl s _ _ T1) as [C1 X1]. destruct (consumes_twin (no_extend o) _ eq_refl s _ _ T2) as [C2 X2].
  rewrite <- C1, <- C2.
  set (k1 := sread (sc_st (r_sc r1))) in *. set (k2 := sread (sc_st (r_sc r2))) in *.
  set (n1 := slines (sc_st (r_sc r1))). set (n2 := slines (sc_st (r_sc r2))).
  assert (RR : rrel k1 n1 k2 n2 0 0 t a1 a2 (renew r1) (renew r2)).
  { unfold rrel, renew. cbn [r_in r_opts r_sc r_q]. split; [exact A10|]. split; [exact B10|]. split; [congruence|].
    cbn [lrel2]. split; [|split].
    - unfold screl. rewrite A2, A3, A5, B2, B3, B5. split; [reflexivity|]. split; [reflexivity|]. split.
      { exists (mkStats 0 0 3). unfold sh, k1, k2, n1, n2. cbn [sread slines scol].
        rewrite <- A4 at 1. rewrite <- B4. destruct (sc_st (r_sc r1)), (sc_st (r_sc r2)). split; reflexivity. }
      split; [exact Logic.I|]. split; [|split; [unfold GapSim.lined; rewrite A6; constructor|exact Logic.I]].
      split; [congruence|]. split; [congruence|]. split; [|rewrite A6, B6; constructor].
      rewrite A8, B8. symmetry. apply opened_same, OB.
    - unfold qrel, q_new. cbn [q_inc q_heap]. repeat split; auto; constructor.
    - exists t. rewrite O1, O2, !app_length. split; [|split; [|split; [|split; lia]]].
      + split; [exact (valid_nc t VT)|]. exists 0. split; [lia|reflexivity].
      + rewrite skipn_app, skipn_all, Nat.sub_diag. reflexivity.
      + rewrite skipn_app, skipn_all, Nat.sub_diag. reflexivity. }
  destruct (consumes_rel k1 n1 k2 n2 0 0 (Nat.le_0_l _) (Nat.le_0_l _) t a1 a2 s _ _ RR Q1' Q2') as (Y1 & Y2 & _).
  split.
  - pose proof (later_tokens _ _ _ _ _ _ s V1 E1) as L1. pose proof (later_tokens _ _ _ _ _ _ s V2 E2) as L2. rewrite <- C1 in L1. rewrite <- C2 in L2.
    eapply Forall2_impl'; [|exact (Forall2_add _ _ _ _ _ Y1 L1 L2)]. intros e e' (H & K1 & K2).
    destruct H as [[-> H]|[(z & Z1 & Z2) H]].
    + split; [reflexivity|]. lia.
    + split; [exact H|]. lia.
  - exact (same_end_twin _ _ _ _ _ _ X1 Y2 X2).
Qed.

(** ** A line behind a marker and the beginning of a text *)
Section Line.
  Variables (o : flags) (a t w1 w2 : str) (x2 : bool) (n : nat).
  Hypothesis NT : nc t.
  Hypothesis F1 : filler t w1 true n.
  Hypothesis F2 : filler t w2 x2 n.
  Definition waiting (sc : scanner) : Prop :=
    sc_state sc = SStream /\ sc_key sc = None /\ sc_cxt sc = cxt0.
  Definition lined_up (r r' : reader) : Prop :=
    r_in r = Borrow (a ++ w1 ++ t) /\ r_in r' = Borrow (w2 ++ t) /\ r_opts r = o /\ r_opts r' = o /\
    r_q r = q_new /\ r_q r' = q_new /\ waiting (r_sc r) /\ waiting (r_sc r') /\
    sc_offset (r_sc r) = List.length a /\ sc_offset (r_sc r') = 0 /\
    sc_ska (r_sc r') = true /\ sc_st (r_sc r') = stats0.

  Lemma line_rel c c' : waiting c -> waiting c' -> sc_ska c' = true -> sc_st c' = stats0 ->
    let k1 := sread (sc_st c) + List.length w1 in let k2 := List.length w2 in
    exists l1 l2 lo, simres k1 l1 k2 l2 0 0 t lo (scan_next_token (no_extend o) (mkMs (w1 ++ t) c q_new))
      (scan_next_token (no_extend o) (mkMs (w2 ++ t) c' q_new)).
  Proof.
    intros (ST & K & CX) (ST' & K' & CX') SK SS. cbv zeta.
    set (k1 := sread (sc_st c) + List.length w1). set (k2 := List.length w2).
    assert (SN : forall w c, sc_state c = SStream -> scan_next_token (no_extend o) (mkMs (w ++ t) c q_new) =
      (sc_eat_whitespace (no_extend o) ;; expire_stale_saved_key ;; after_expire (no_extend o)) (mkMs (w ++ t) c q_new)).
    { intros w d ST0. unfold scan_next_token. unfold mbind at 1, get_sc. cbn [m_sc]. rewrite ST0. reflexivity. }
    rewrite !SN by assumption. clear SN.
    destruct (eat_result (no_extend o) eq_refl t n NT c q_new w1 true F1) as (n1 & B1 & E1).
    destruct (eat_result (no_extend o) eq_refl t n NT c' q_new w2 x2 F2) as (n2 & B2 & E2).
    assert (P : 0 < n1) by (destruct n1; [discriminate (proj1 B1 eq_refl)|lia]). clear B1 B2.
    destruct (eat_whitespace (no_extend o) t (mkStats 0 0 n) true) as [[rst z]|e| |].
    2:{ destruct E1 as [s1 E1], E2 as [s2 E2]. exists 0, 0, stats0. unfold mbind. rewrite E1, E2. reflexivity. }
    2:{ destruct E1 as [s1 E1], E2 as [s2 E2]. exists 0, 0, stats0. unfold mbind. rewrite E1, E2. exact Logic.I. }
    2:{ destruct E1 as [s1 E1], E2 as [s2 E2]. exists 0, 0, stats0. unfold mbind. rewrite E1, E2. exact Logic.I. }
    destruct E1 as [E1 R], E2 as [E2 _].
    assert ((if Nat.eqb (slines z + n1) 0 then c else set_ska true c) = set_ska true c) as X1.
    { destruct (Nat.eqb_spec (slines z + n1) 0); [lia|reflexivity]. }
    assert ((if Nat.eqb (slines z + n2) 0 then c' else set_ska true c') = set_ska true c') as X2.
    { destruct (Nat.eqb (slines z + n2) 0); [|reflexivity]. destruct c' as [c1 c2 c3 c4 c5 c6]. cbn in SK. subst c3. reflexivity. }
    rewrite X1 in E1. rewrite X2 in E2. clear X1 X2.
    set (l1 := slines (sc_st c) + n1). set (l2 := n2).
    assert (Y1 : sadd (sc_st c) (sh (List.length w1) n1 z) = sh k1 l1 z).
    { unfold sadd, supd, sh, k1, l1. cbn [sread slines scol]. f_equal; [lia|lia|]. destruct (slines z + n1) eqn:Q; [lia|reflexivity]. }
    assert (Y2 : sadd (sc_st c') (sh (List.length w2) n2 z) = sh k2 l2 z).
    { rewrite SS. unfold sadd, supd, sh, k2, l2, stats0. cbn [sread slines scol]. f_equal; try lia. destruct (slines z + n2) eqn:Q; reflexivity. }
    rewrite Y1 in E1. rewrite Y2 in E2. clear Y1 Y2.
    set (d1 := set_st (sh k1 l1 z) (set_ska true c)) in *. set (d2 := set_st (sh k2 l2 z) (set_ska true c')) in *.
    exists l1, l2, (sc_st d1).
    assert (M : msim k1 l1 k2 l2 0 0 t (mkMs rst d1 q_new) (mkMs rst d2 q_new)).
    { split; [reflexivity|]. split; [exact R|]. cbn [m_sc m_q]. split.
      - unfold screl, d1, d2. cbn [set_st set_ska sc_state sc_ska sc_st sc_key sc_cxt]. rewrite ST, ST', K, K', CX, CX'.
        repeat split; auto; try constructor. exists z. split; reflexivity.
      - unfold qrel, q_new. cbn [q_inc q_heap]. repeat split; auto; constructor. }
    assert (X : forall d, sc_key d = None -> expire_stale_saved_key (mkMs rst d q_new) = (mkMs rst d q_new, Ok tt)).
    { intros d KD. unfold expire_stale_saved_key, mbind, get_sc, mret. cbn [m_sc]. rewrite KD. reflexivity. }
    unfold mbind at 1 3. rewrite E1, E2. unfold mbind. rewrite (X d1), (X d2) by assumption.
    exact (sim_after k1 l1 k2 l2 0 0 (Nat.le_0_l _) (Nat.le_0_l _) t (no_extend o) (sc_st d1) _ _ M (GapSim.le_refl _)).
  Qed.

  Lemma line_fill r r' : lined_up r r' -> quiet_reader r -> quiet_reader r' ->
    exists l1 l2, fillrel (sread (sc_st (r_sc r)) + List.length w1) l1 (List.length w2) l2 0 0 t (a ++ w1) w2 (reader_scan r) (reader_scan r').
  Proof.
    intros (I & I' & O & O' & Q & Q' & W & W' & OF & OF' & SK & SS) QR QR'.
    pose proof (quiet_loop _ _ QR I) as N. pose proof (quiet_loop _ _ QR' I') as N'.
    destruct (line_rel _ _ W W' SK SS) as (l1 & l2 & lo & R). exists l1, l2. set (k1 := sread (sc_st (r_sc r)) + List.length w1) in *. set (k2 := List.length w2) in *.
    rewrite app_assoc in I, N.
    apply (loops_fill k1 l1 k2 l2 0 0 t (a ++ w1) w2 r r'
      (List.length ((a ++ w1) ++ t) + 3 + (List.length (w2 ++ t) + 3)) (List.length (w2 ++ t) + 3 + (List.length ((a ++ w1) ++ t) + 3)) I I' ltac:(congruence)). cbv zeta.
    rewrite O' in N'. rewrite O in N. rewrite O, O'. split; [|split; [|split]].
    - rewrite scan_more by exact N. rewrite I. apply drive_loop.
    - rewrite scan_more by exact N'. rewrite I'. apply drive_loop.
    - rewrite scan_more by exact N. exact N.
    - clear N N'. rewrite Q, Q'.
      replace (List.length (w2 ++ t) + 3 + (List.length ((a ++ w1) ++ t) + 3)) with (List.length ((a ++ w1) ++ t) + 3 + (List.length (w2 ++ t) + 3)) by lia.
      assert (exists f, List.length ((a ++ w1) ++ t) + 3 + (List.length (w2 ++ t) + 3) = S f) as [f ->] by (exists (List.length ((a ++ w1) ++ t) + 2 + (List.length (w2 ++ t) + 3)); lia).
      cbn [scan_loop]. destruct W as (ST & W), W' as (ST' & W').
      assert (WM : forall c, sc_state c = SStream -> want_more (@q_len entry q_new) c q_new = true) by (intros c SC; unfold want_more; rewrite SC; reflexivity).
      rewrite !WM by assumption.
      unfold scan_round. rewrite OF, OF'. rewrite <- !app_assoc, (from_gap o a t n NT w1 true F1).
      pose proof (from_gap o [] t n NT w2 x2 F2) as FG. cbn [app List.length] in FG. rewrite FG. rewrite !app_assoc.
      pose proof (fun sc1 sc2 => res_rel k1 l1 k2 l2 0 0 (Nat.le_0_l _) (Nat.le_0_l _) t (a ++ w1) w2 _ _ _ sc1 sc2 R) as Y.
      destruct (scan_next_token _ (mkMs (w1 ++ t) _ _)) as [s x], (scan_next_token _ (mkMs (w2 ++ t) _ _)) as [s' x']. cbn [fst snd] in Y.
      specialize (Y _ _ eq_refl eq_refl).
      destruct x as [[]|e| |], x' as [[]|e'| |]; cbn in R; try contradiction; try exact Y.
      apply loop_rel; [apply Nat.le_0_l|apply Nat.le_0_l|]. exact Y.
  Qed.
  Lemma line_consumes s : forall r r', lined_up r r' -> quiet_reader r -> quiet_reader r' ->
    Forall2 (outrel (sread (sc_st (r_sc r)) + List.length w1) (List.length w2) 0) (fst (consumes r s)) (fst (consumes r' s)) /\
    same_end (snd (consumes r s)) (snd (consumes r' s)).
  Proof.
    induction s as [|[|] s IH]; intros r r' R Q Q'; cbn [consumes].
    - cbn [fst snd]. split; [constructor|exact Logic.I].
    - destruct (line_fill _ _ R Q Q') as (l1 & l2 & X). destruct (reader_scan r) as [r1 x] eqn:E, (reader_scan r') as [r1' x'] eqn:E'.
      destruct (quiet_fill _ _ _ Q E) as [N QN], (quiet_fill _ _ _ Q' E') as [N' QN'].
      destruct x as [u|e| |], x' as [u'|e'| |]; cbn in X; try contradiction.
      + destruct (consumes_rel _ _ _ _ _ _ (Nat.le_0_l _) (Nat.le_0_l _) _ _ _ s _ _ X (QN _ eq_refl) (QN' _ eq_refl)) as (A & B & _). split; assumption.
      + cbn [fst snd]. split; [constructor|exact X].
      + cbn [fst snd]. split; [constructor|exact X].
    - pose proof R as (I & I' & O & O' & QE & QE' & REST). rewrite QE, QE'. cbn [q_pop q_new q_heap].
      assert (G : mkReader (r_sc r) q_new (r_opts r) (r_exhausted r) (r_in r) = r) by (rewrite <- QE; destruct r; reflexivity).
      assert (G' : mkReader (r_sc r') q_new (r_opts r') (r_exhausted r') (r_in r') = r') by (rewrite <- QE'; destruct r'; reflexivity).
      unfold q_pop. cbn [q_heap q_new]. rewrite G, G'. specialize (IH _ _ R Q Q').
      destruct (consumes r s) as [l2' y], (consumes r' s) as [l2'' y']. exact IH.
  Qed.
End Line.

Lemma document_alone a t w1 w2 x2 n o s1 l m r1 :
  well_formed (a ++ w1 ++ t) -> well_formed (w2 ++ t) -> well_formed t ->
  filler t w1 true n -> filler t w2 x2 n ->
  consumes (open (a ++ w1 ++ t) o) s1 = (l ++ [m], Ok r1) -> marks_document m -> nothing_ready r1 ->
  sc_offset (r_sc r1) = List.length a -> flows_closed l -> ~ opens_block l ->
  exists r2, consumes (open (w2 ++ t) o) [Fill; Pull] = ([mkEntry (Tok TStreamStart) 0], Ok r2) /\
    forall s, Forall2 (moved (e_read m + List.length w1) (List.length w2)) (fst (consumes r1 s)) (fst (consumes r2 s)) /\
      same_end (snd (consumes r1 s)) (snd (consumes r2 s)).
Proof.
  intros V1 V2 VT F1 F2 E1 M1 N1 O1 FC OB. apply valid_iff in V1, V2, VT. apply ready_heap in N1.
  pose proof (valid_nc _ VT) as NT. pose proof (valid_nc _ V2) as N2T.
  assert (CM : forall (f : marker -> bool), f MDocumentStart = false -> f MDocumentEnd = false -> count f (l ++ [m]) = count f l).
  { intros f A B. rewrite count_app, count_cons. change (count f []) with 0. destruct M1 as [M|M]; rewrite M, ?A, ?B; lia. }
  destruct (parts_reader _ _ _ _ _ _ V1 E1 (marks_docmark _ M1) N1) as (A1 & A2 & A3 & A4 & A0 & A5 & A6 & A7 & A8 & A9 & A10 & A11 & A12).
  rewrite (CM block_open) in A8 by auto. rewrite (CM flow_close), (CM flow_open) in A9 by auto. unfold flows_closed in FC.
  assert (FA : c_flow (sc_cxt (r_sc r1)) = 0) by lia. specialize (A6 (no_flow_block _ FA)). rewrite A6 in A7. cbn [ground] in A7.
  assert (CX : sc_cxt (r_sc r1) = cxt0).
  { assert (C0 : count block_open l = 0) by (rewrite opens_count in OB; lia). rewrite C0 in A8.
    destruct (sc_cxt (r_sc r1)) as [f i il st]. cbn in *. subst. reflexivity. }
  set (rr := mkReader (mkSc 0 SStream true stats0 None cxt0) (mkQueue [] 1) o false (Borrow (w2 ++ t))).
  assert (E2 : consumes (open (w2 ++ t) o) [Fill; Pull] = ([mkEntry (Tok TStreamStart) 0], Ok rr)).
  { cbn [consumes]. unfold open at 1, reader_new. rewrite (open_fill (w2 ++ t) o false N2T). reflexivity. }
  exists rr. split; [exact E2|]. intros s.
  destruct (reach_own _ _ _ _ _ V1 E1) as (_ & _ & _ & Q1 & OP1). destruct (reach_own _ _ _ _ _ V2 E2) as (_ & _ & I2 & Q2 & OP2).
  pose proof (renew_twin _ _ _ A10 A11 A12 N1) as T1.
  assert (T2 : twin (no_extend o) (w2 ++ t) rr (renew rr)).
  { apply renew_twin; [reflexivity|reflexivity| |reflexivity].
    pose proof (consumes_history o _ _ _ _ V2 E2) as H.
    destruct (calls (no_extend o) (w2 ++ t) (fills [Fill; Pull])) as [[h sc] [u|e| |]] eqn:C; destruct H as (_ & _ & H); [|destruct H; discriminate..|destruct H].
    destruct H as (r' & H & (_ & _ & _ & h' & rst & C' & _) & G). injection H as <-. exists h.
    assert (r_sc rr = sc) as -> by congruence. exact G. }
  pose proof (twin_quiet (no_extend o) _ _ _ eq_refl T1 Q1) as Q1'. pose proof (twin_quiet (no_extend o) _ _ _ eq_refl T2 Q2) as Q2'.
  destruct (consumes_twin (no_extend o) _ eq_refl s _ _ T1) as [C1 X1]. destruct (consumes_twin (no_extend o) _ eq_refl s _ _ T2) as [C2 X2].
  rewrite <- C1, <- C2.
  assert (LU : lined_up o a t w1 w2 (renew r1) (renew rr)).
  { unfold lined_up, renew, waiting. cbn [r_in r_opts r_sc r_q]. repeat (split; [first [assumption|reflexivity]|]).
    split; [repeat (split; [assumption|]); assumption|]. split; [repeat split|]. repeat (split; [first [assumption|reflexivity]|]). reflexivity. }
  destruct (line_consumes o a t w1 w2 x2 n NT F1 F2 s _ _ LU Q1' Q2') as (Y1 & Y2). cbn [renew r_sc] in Y1. rewrite <- A1 in Y1.
  split.
  - pose proof (later_tokens _ _ _ _ _ _ s V1 E1) as L1. rewrite <- C1 in L1.
    assert (L2 : Forall (fun _ : entry => True) (fst (consumes (renew rr) s))) by (apply Forall_forall; auto).
    eapply Forall2_impl'; [|exact (Forall2_add _ _ _ _ _ Y1 L1 L2)]. intros e e' (H & K1 & _).
    destruct H as [[-> H]|[(z & Z1 & Z2) H]]; [lia|]. split; [exact H|]. lia.
  - exact (same_end_twin _ _ _ _ _ _ X1 Y2 X2).
Qed.
