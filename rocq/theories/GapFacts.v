(** White space and comments in front of a text do not change its tokens. *)
From Verif Require Import StreamFacts.
From Verif Require Utf8Facts.
From Verif Require Export GapSim SpecUtf8.
From Coq Require Import Lia ZifyBool ZifyN ZifyNat.
Open Scope nat_scope.

(** ** Readers *)
Definition quiet_reader (r : reader) : Prop := forall s, snd (consumes r s) <> Fuel.
Lemma quiet_pull r : quiet_reader r -> quiet_reader (mkReader (r_sc r) (snd (q_pop entry_cmp (r_q r))) (r_opts r) (r_exhausted r) (r_in r)).
Proof.
  intros H s. specialize (H (Pull :: s)). cbn [consumes] in H. destruct (q_pop entry_cmp (r_q r)) as [e q]. cbn [snd].
  destruct (consumes _ s) as [l x]. destruct e; exact H.
Qed.
Lemma quiet_fill r r1 x : quiet_reader r -> reader_scan r = (r1, x) -> x <> Fuel /\ (forall u, x = Ok u -> quiet_reader r1).
Proof.
  intros H E. split.
  - specialize (H [Fill]). cbn [consumes] in H. rewrite E in H. destruct x; cbn in H; congruence.
  - intros u -> s. specialize (H (Fill :: s)). cbn [consumes] in H. rewrite E in H. exact H.
Qed.
Lemma scan_more o base start f : forall sc q k, snd (scan_loop f o base start sc q) <> Fuel ->
  scan_loop (f + k) o base start sc q = scan_loop f o base start sc q.
Proof.
  induction f as [|f IH]; intros sc q k H; cbn [scan_loop Nat.add] in *.
  - destruct k; cbn [scan_loop]; destruct (want_more start sc q); try reflexivity; exfalso; apply H; reflexivity.
  - destruct (want_more start sc q); [|reflexivity]. destruct (scan_round o base sc q) as [[sc1 q1] [[]| | |]]; auto.
Qed.

Lemma Forall2_impl' {A B} (P Q : A -> B -> Prop) l l' : (forall a b, P a b -> Q a b) -> Forall2 P l l' -> Forall2 Q l l'.
Proof. intros H. induction 1; constructor; auto. Qed.

Section Two.
  Variables k1 l1 k2 l2 i0 p0 : nat.
  Hypothesis P1 : p0 <= k1.
  Hypothesis P2 : p0 <= k2.
  Variables T u u' : str.
  Definition rrel (r r' : reader) : Prop :=
    r_in r = Borrow (u ++ T) /\ r_in r' = Borrow (u' ++ T) /\ r_opts r' = r_opts r /\
    lrel2 k1 l1 k2 l2 i0 p0 T (u ++ T) (u' ++ T) (r_sc r, r_q r, Ok tt) (r_sc r', r_q r', Ok tt).
  Definition fillrel (x x' : reader * rres unit) : Prop :=
    match x, x' with
    | (r1, Ok _), (r1', Ok _) => rrel r1 r1'
    | (_, Err e), (_, Err e') => e = e'
    | (_, Panic), (_, Panic) => True
    | _, _ => False
    end.
  (** From related loops to related readers. *)
  Lemma loops_fill r r' f f' : r_in r = Borrow (u ++ T) -> r_in r' = Borrow (u' ++ T) -> r_opts r' = r_opts r ->
    (let o := no_extend (r_opts r) in
     drive (r_opts r) (r_in r) (r_sc r) (r_q r) = (let '(sc, q, x) := scan_loop f o (u ++ T) (q_len (r_q r)) (r_sc r) (r_q r) in (Borrow (u ++ T), sc, q, map_err RScan x)) /\
     drive (r_opts r') (r_in r') (r_sc r') (r_q r') = (let '(sc, q, x) := scan_loop f' o (u' ++ T) (q_len (r_q r')) (r_sc r') (r_q r') in (Borrow (u' ++ T), sc, q, map_err RScan x)) /\
     snd (scan_loop f o (u ++ T) (q_len (r_q r)) (r_sc r) (r_q r)) <> Fuel /\
     lrel2 k1 l1 k2 l2 i0 p0 T (u ++ T) (u' ++ T) (scan_loop f o (u ++ T) (q_len (r_q r)) (r_sc r) (r_q r))
       (scan_loop f' o (u' ++ T) (q_len (r_q r')) (r_sc r') (r_q r'))) ->
    fillrel (reader_scan r) (reader_scan r').
  Proof.
    intros I I' O. cbv zeta. intros (D & D' & NF & R). unfold reader_scan. rewrite D, D'.
    destruct (scan_loop f _ _ _ _ _) as [[sc1 q1] [[]|e| |]], (scan_loop f' _ _ _ _ _) as [[sc1' q1'] [[]|e'| |]]; cbn in NF, R |- *; try contradiction; try congruence.
    unfold rrel. cbn [r_in r_opts r_sc r_q]. split; [reflexivity|]. split; [reflexivity|]. split; [exact O|]. exact R.
  Qed.
  Lemma drive_loop o t sc q : drive o (Borrow t) sc q =
    let '(sc, q, x) := scan_loop (List.length t + 3) (no_extend o) t (q_len q) sc q in (Borrow t, sc, q, map_err RScan x).
  Proof. reflexivity. Qed.
  Lemma quiet_loop r t : quiet_reader r -> r_in r = Borrow t ->
    snd (scan_loop (List.length t + 3) (no_extend (r_opts r)) t (q_len (r_q r)) (r_sc r) (r_q r)) <> Fuel.
  Proof.
    intros H I. destruct (reader_scan r) as [r1 x] eqn:E. destruct (quiet_fill _ _ _ H E) as [N _]. unfold reader_scan in E. rewrite I, drive_loop in E.
    destruct (scan_loop _ _ _ _ _ _) as [[sc1 q1] y]. cbn [snd] in *. intros ->. cbn [map_err] in E. apply N. congruence.
  Qed.
  Lemma fill_rel r r' : rrel r r' -> quiet_reader r -> quiet_reader r' -> fillrel (reader_scan r) (reader_scan r').
  Proof.
    intros (I & I' & O & R) Q Q'.
    pose proof (quiet_loop _ _ Q I) as F. pose proof (quiet_loop _ _ Q' I') as F'.
    apply (loops_fill r r' (List.length (u ++ T) + 3 + (List.length (u' ++ T) + 3)) (List.length (u' ++ T) + 3 + (List.length (u ++ T) + 3)) I I' O). cbv zeta.
    rewrite O in F'.
    split; [|split; [|split]].
    - rewrite scan_more by exact F. rewrite I. apply drive_loop.
    - rewrite scan_more by exact F'. rewrite I', O. apply drive_loop.
    - rewrite scan_more by exact F. exact F.
    - assert (QL : q_len (r_q r') = q_len (r_q r)) by (destruct R as (_ & R & _); apply (qrel_len _ _ _ _ _ _ _ R)).
      rewrite QL. replace (List.length (u' ++ T) + 3 + (List.length (u ++ T) + 3)) with (List.length (u ++ T) + 3 + (List.length (u' ++ T) + 3)) by lia.
      apply loop_rel; assumption.
  Qed.
  Lemma consumes_rel s : forall r r', rrel r r' -> quiet_reader r -> quiet_reader r' ->
    Forall2 (outrel k1 k2 p0) (fst (consumes r s)) (fst (consumes r' s)) /\ same_end (snd (consumes r s)) (snd (consumes r' s)) /\
    (forall r1 r1', snd (consumes r s) = Ok r1 -> snd (consumes r' s) = Ok r1' -> rrel r1 r1').
  Proof.
    induction s as [|[|] s IH]; intros r r' R Q Q'; cbn [consumes].
    - cbn [fst snd]. split; [constructor|]. split; [exact Logic.I|]. intros r1 r1' E E'. assert (r1 = r) as -> by congruence. assert (r1' = r') as -> by congruence. exact R.
    - pose proof (fill_rel _ _ R Q Q') as X. destruct (reader_scan r) as [r1 x] eqn:E, (reader_scan r') as [r1' x'] eqn:E'.
      destruct (quiet_fill _ _ _ Q E) as [N QN], (quiet_fill _ _ _ Q' E') as [N' QN'].
      destruct x as [a|e| |], x' as [a'|e'| |]; cbn in X; try contradiction.
      + apply IH; [exact X|eapply QN; reflexivity|eapply QN'; reflexivity].
      + cbn [fst snd]. split; [constructor|]. split; [exact X|discriminate].
      + cbn [fst snd]. split; [constructor|]. split; [exact X|discriminate].
    - pose proof R as (I & I' & O & C & QR & B). pose proof (pop_rel _ _ _ _ P1 P2 _ _ _ QR) as P.
      pose proof (quiet_pull _ Q) as Q1. pose proof (quiet_pull _ Q') as Q1'.
      destruct (q_pop entry_cmp (r_q r)) as [[e|] q1].
      + destruct P as (e' & q1' & EP & ER & QR1). rewrite EP in Q1' |- *. cbn [snd] in Q1, Q1'.
        assert (RR : rrel (mkReader (r_sc r) q1 (r_opts r) (r_exhausted r) (r_in r)) (mkReader (r_sc r') q1' (r_opts r') (r_exhausted r') (r_in r'))).
        { unfold rrel. cbn [r_in r_opts r_sc r_q]. split; [exact I|]. split; [exact I'|]. split; [exact O|]. split; [exact C|]. split; [exact QR1|exact B]. }
        specialize (IH _ _ RR Q1 Q1'). destruct (consumes (mkReader _ q1 _ _ _) s) as [l2' x2], (consumes (mkReader _ q1' _ _ _) s) as [l2'' x2'].
        cbn [fst snd] in *. destruct IH as (A1 & A2 & A3). split; [constructor; assumption|]. split; assumption.
      + destruct P as (q1' & EP & QR1). rewrite EP in Q1' |- *. cbn [snd] in Q1, Q1'.
        assert (RR : rrel (mkReader (r_sc r) q1 (r_opts r) (r_exhausted r) (r_in r)) (mkReader (r_sc r') q1' (r_opts r') (r_exhausted r') (r_in r'))).
        { unfold rrel. cbn [r_in r_opts r_sc r_q]. split; [exact I|]. split; [exact I'|]. split; [exact O|]. split; [exact C|]. split; [exact QR1|exact B]. }
        specialize (IH _ _ RR Q1 Q1'). destruct (consumes (mkReader _ q1 _ _ _) s) as [l2' x2], (consumes (mkReader _ q1' _ _ _) s) as [l2'' x2'].
        cbn [fst snd] in *. destruct IH as (A1 & A2 & A3). split; [assumption|]. split; assumption.
  Qed.
End Two.

(** ** Reachable readers *)
Definition own (sc : scanner) : Prop := screl 0 0 0 0 sc sc.
Definition ownq (st : stats) (q : tokens) : Prop := qrel 0 0 0 0 st q q.
Lemma valid_nc t : valid t -> nc t.
Proof.
  intros V. destruct t as [|c t]; [exact Logic.I|]. destruct (LazyFacts.valid_first (c :: t) V ltac:(discriminate)) as (x & y & r & E & _ & _ & NC & _).
  cbn [nc]. assert (c = x) as -> by congruence. exact NC.
Qed.
Lemma open_quiet t o : valid t -> quiet_reader (open t o).
Proof. intros V s. destruct (consumes (open t o) s) as [l x] eqn:E. cbn [snd]. apply (stream_fuel t o V s l x E). Qed.
Lemma quiet_later r s r1 : quiet_reader r -> snd (consumes r s) = Ok r1 -> quiet_reader r1.
Proof.
  revert r. induction s as [|[|] s IH]; intros r Q E; cbn [consumes] in E.
  - cbn [snd] in E. assert (r1 = r) as -> by congruence. exact Q.
  - destruct (reader_scan r) as [r2 x] eqn:S. destruct (quiet_fill _ _ _ Q S) as [_ Q2]. destruct x; try discriminate. eapply IH; [eapply Q2; reflexivity|exact E].
  - pose proof (quiet_pull _ Q) as Q2. destruct (q_pop entry_cmp (r_q r)) as [e q]. destruct (consumes _ s) as [l x] eqn:C. cbn [snd] in *.
    eapply IH; [exact Q2|]. rewrite C. exact E.
Qed.
Lemma open_own t o : nc t -> rrel 0 0 0 0 0 0 t [] [] (open t o) (open t o).
Proof.
  intros N. unfold rrel, open, reader_new. cbn [r_in r_opts r_sc r_q app]. repeat (split; [reflexivity|]).
  cbn [lrel2]. split; [|split].
  - unfold screl, scanner0. cbn [sc_state sc_ska sc_st sc_key sc_cxt]. repeat split; auto; try constructor; try (exists stats0; split; reflexivity).
  - unfold qrel, q_new. cbn [q_inc q_heap]. repeat split; auto; constructor.
  - exists t. cbn [scanner0 sc_offset skipn]. split; [|repeat split; auto; lia]. split; [exact N|]. exists 0. split; [lia|reflexivity].
Qed.
Lemma reach_own t o s l r : valid t -> consumes (open t o) s = (l, Ok r) ->
  own (r_sc r) /\ ownq (sc_st (r_sc r)) (r_q r) /\ r_in r = Borrow t /\ quiet_reader r /\ r_opts r = o.
Proof.
  intros V E. pose proof (open_quiet t o V) as Q. pose proof (consumes_rel 0 0 0 0 0 0 (le_n 0) (le_n 0) t [] [] s _ _ (open_own t o (valid_nc t V)) Q Q) as (_ & _ & H).
  rewrite E in H. cbn [snd] in H. destruct (H r r eq_refl eq_refl) as (I & _ & _ & C & QR & _). split; [exact C|]. split; [exact QR|]. split; [exact I|]. split.
  - apply (quiet_later (open t o) s); [exact Q|]. rewrite E. reflexivity.
  - clear - E. revert E. assert (O : r_opts (open t o) = o) by reflexivity. revert O. generalize (open t o). revert l.
    induction s as [|[|] s IH]; intros l r0 O E; cbn [consumes] in E.
    + assert (r = r0) as -> by congruence. exact O.
    + destruct (reader_scan r0) as [r2 x] eqn:S. destruct x; try discriminate; try (exfalso; congruence). eapply IH; [|exact E].
      unfold reader_scan in S. destruct (drive _ _ _ _) as [[[? ?] ?] ?]. match type of S with (?x, _) = _ => assert (r2 = x) as -> by congruence end. exact O.
    + destruct (q_pop entry_cmp (r_q r0)) as [e q]. destruct (consumes _ s) as [l2 x] eqn:C. eapply IH; [|rewrite C; f_equal; congruence]. exact O.
Qed.

Lemma sh00 st : st = sh 0 0 st.
Proof. destruct st as [a b d]. unfold sh. cbn [sread slines scol]. rewrite !Nat.add_0_r. reflexivity. Qed.

(** ** The first token behind the white space *)
Section First.
  Variable o : flags.
  Hypothesis Static : extendable o = false.
  Variables (t w1 w2 : str) (x1 x2 : bool) (n : nat).
  Hypothesis NT : nc t.
  Hypothesis F1 : filler t w1 x1 n.
  Hypothesis F2 : filler t w2 x2 n.
  Variables (c : scanner) (q : tokens).
  Hypothesis OC : own c.
  Hypothesis OQ : ownq (sc_st c) q.

  (** At the beginning of the stream it makes no difference whether there are lines. *)
  Definition fresh : Prop := c_indents (sc_cxt c) = [] /\ sc_key c = None /\ sc_ska c = true /\ scol (sc_st c) = 0.

  Lemma eat_result w x : filler t w x n -> exists nb, (nb = 0 <-> x = false) /\
    match eat_whitespace o t (mkStats 0 0 n) true with
    | Ok (rest, z) => sc_eat_whitespace o (mkMs (w ++ t) c q) =
        (mkMs rest (set_st (sadd (sc_st c) (sh (List.length w) nb z))
                     (if Nat.eqb (slines z + nb) 0 then c else set_ska true c)) q, Ok tt) /\ inT t rest
    | Err e => exists s, sc_eat_whitespace o (mkMs (w ++ t) c q) = (s, Err e)
    | Panic => exists s, sc_eat_whitespace o (mkMs (w ++ t) c q) = (s, Panic)
    | Fuel => exists s, sc_eat_whitespace o (mkMs (w ++ t) c q) = (s, Fuel)
    end.
  Proof.
    intros F. destruct (eat_rest o Static t w x n F NT) as (nb & B & E). exists nb. split; [exact B|].
    unfold sc_eat_whitespace, mbind, get_buf, mlift. cbn [m_buf]. rewrite E.
    pose proof (eat_ws_leaf o t (mkStats 0 0 n) true) as LF.
    destruct (eat_whitespace o t (mkStats 0 0 n) true) as [[rest z]|e| |]; cbn [rmap bind]; eauto.
    cbn [leaf] in LF. unfold sh2. cbn [fst snd]. cbn [sh slines]. pose proof (skip_reads _ _ _ _ w LF NT) as SK.
    split.
    - destruct (Nat.eqb (slines z + nb) 0); unfold mret, upd, advance, mbind, get_buf, mlift; cbn [m_buf m_sc m_q];
      rewrite SK; unfold put_buf, add_st, upd; cbn [m_buf m_sc m_q]; reflexivity.
    - split; [eapply reads_nc; eassumption|]. destruct (reads_len _ _ _ _ LF) as (L1 & _ & L2). eexists. split; [|exact L2]. lia.
  Qed.

  Lemma first_rel : (x1 = x2 \/ fresh) -> sc_state c = SStream ->
    exists k1 l1 k2 l2 i0 p0 lo, p0 <= k1 /\ p0 <= k2 /\ p0 <= sread (sc_st c) /\ k1 + List.length w2 = k2 + List.length w1 /\
    simres k1 l1 k2 l2 i0 p0 t lo (scan_next_token o (mkMs (w1 ++ t) c q)) (scan_next_token o (mkMs (w2 ++ t) c q)).
  Proof.
    intros X ST.
    assert (SN : forall w, scan_next_token o (mkMs (w ++ t) c q) = (sc_eat_whitespace o ;; expire_stale_saved_key ;; after_expire o) (mkMs (w ++ t) c q)).
    { intros w. unfold scan_next_token. unfold mbind at 1, get_sc. cbn [m_sc]. rewrite ST. reflexivity. }
    rewrite !SN. clear SN.
    destruct (eat_result w1 x1 F1) as (n1 & B1 & E1), (eat_result w2 x2 F2) as (n2 & B2 & E2).
    pose proof OC as (_ & _ & _ & _ & _ & LI & KY). pose proof OQ as (_ & _ & HH & QF).
    destruct (eat_whitespace o t (mkStats 0 0 n) true) as [[rest z]|e| |].
    2:{ destruct E1 as [s1 E1], E2 as [s2 E2]. exists (List.length w1), 0, (List.length w2), 0, 0, 0, stats0.
        repeat (split; [lia|]). unfold mbind. rewrite E1, E2. reflexivity. }
    2:{ destruct E1 as [s1 E1], E2 as [s2 E2]. exists (List.length w1), 0, (List.length w2), 0, 0, 0, stats0.
        repeat (split; [lia|]). unfold mbind. rewrite E1, E2. exact Logic.I. }
    2:{ destruct E1 as [s1 E1], E2 as [s2 E2]. exists (List.length w1), 0, (List.length w2), 0, 0, 0, stats0.
        repeat (split; [lia|]). unfold mbind. rewrite E1, E2. exact Logic.I. }
    destruct E1 as [E1 R], E2 as [E2 _].
    assert (HX : (0 < n1 /\ 0 < n2) \/ fresh -> exists k1 l1 k2 l2 i0 p0 lo, p0 <= k1 /\ p0 <= k2 /\ p0 <= sread (sc_st c) /\ k1 + List.length w2 = k2 + List.length w1 /\
      simres k1 l1 k2 l2 i0 p0 t lo ((sc_eat_whitespace o ;; expire_stale_saved_key ;; after_expire o) (mkMs (w1 ++ t) c q))
        ((sc_eat_whitespace o ;; expire_stale_saved_key ;; after_expire o) (mkMs (w2 ++ t) c q))).
    { clear X B1 B2. intros HB.
      assert (SK : forall m, 0 < m \/ fresh -> (if Nat.eqb (slines z + m) 0 then c else set_ska true c) = set_ska true c).
      { intros m [H|(_ & _ & H & _)]; [destruct (Nat.eqb_spec (slines z + m) 0); [lia|reflexivity]|].
        destruct (Nat.eqb (slines z + m) 0); [|reflexivity]. destruct c as [c1 c2 c3 c4 c5 c6]. cbn in H. subst c3. reflexivity. }
      rewrite SK in E1 by tauto. rewrite SK in E2 by tauto.
      assert (SS : forall m w, 0 < m \/ fresh -> sadd (sc_st c) (sh w m z) = sh (sread (sc_st c) + w) (slines (sc_st c) + m) z).
      { intros m w H. unfold sadd, supd, sh. cbn [sread slines scol]. f_equal; [lia|lia|].
        destruct (slines z + m) eqn:Q; [|reflexivity]. destruct H as [H|(_ & _ & _ & H)]; [lia|]. rewrite H. reflexivity. }
      rewrite SS in E1 by tauto. rewrite SS in E2 by tauto. clear SS SK.
      set (k1 := sread (sc_st c) + List.length w1) in *. set (k2 := sread (sc_st c) + List.length w2) in *.
      set (l1 := slines (sc_st c) + n1) in *. set (l2 := slines (sc_st c) + n2) in *.
      set (d1 := set_st (sh k1 l1 z) (set_ska true c)) in *. set (d2 := set_st (sh k2 l2 z) (set_ska true c)) in *.
      exists k1, l1, k2, l2, (q_inc q), (sread (sc_st c)), (sc_st d1).
      assert (P1 : sread (sc_st c) <= k1) by (unfold k1; lia). assert (P2 : sread (sc_st c) <= k2) by (unfold k2; lia).
      split; [exact P1|]. split; [exact P2|]. split; [lia|]. split; [unfold k1, k2; lia|].
      assert (LE : le_st (sc_st c) (sc_st d1)) by (unfold d1, le_st, sh, k1, l1; cbn; lia).
      assert (QR : qrel k1 k2 (q_inc q) (sread (sc_st c)) (sc_st d1) q q).
      { split; [reflexivity|]. split; [lia|]. split.
        - clear - QF. induction QF as [|x l [A B] F IH]; constructor; [|exact IH]. split; [reflexivity|]. left. auto.
        - eapply Forall_impl; [|exact QF]. cbn beta. intros x [A B]. destruct LE. lia. }
      assert (CX : cxrel l1 l2 (sc_cxt c) (sc_cxt c)).
      { split; [reflexivity|]. split; [reflexivity|]. split; [reflexivity|]. destruct HB as [[H1 H2]|(H & _)]; [|rewrite H; constructor].
        clear - H1 H2 LI. unfold lined in LI. induction LI as [|x l A F IH]; constructor; [|exact IH].
        repeat split. right. unfold l1, l2. lia. }
      assert (MS : forall kk kk', krel k1 l1 k2 l2 kk kk' -> keyed (sc_st d1) kk ->
        msim k1 l1 k2 l2 (q_inc q) (sread (sc_st c)) t (mkMs rest (set_key kk d1) q) (mkMs rest (set_key kk' d2) q)).
      { intros kk kk' K1 K2. split; [reflexivity|]. split; [exact R|]. cbn [m_sc m_q]. split; [|exact QR].
        split; [reflexivity|]. split; [reflexivity|]. split; [exists z; split; reflexivity|]. split; [exact K1|]. split; [exact CX|]. split; [|exact K2].
        eapply Forall_impl; [|exact LI]. cbn beta. intros e A. destruct LE as [_ LE]. cbn [set_key sc_st]. lia. }
      assert (EX : expire_stale_saved_key (mkMs rest d1 q) = (mkMs rest d1 q, Err MissingValue) /\ expire_stale_saved_key (mkMs rest d2 q) = (mkMs rest d2 q, Err MissingValue) \/
        exists kk kk', expire_stale_saved_key (mkMs rest d1 q) = (mkMs rest (set_key kk d1) q, Ok tt) /\
          expire_stale_saved_key (mkMs rest d2 q) = (mkMs rest (set_key kk' d2) q, Ok tt) /\ krel k1 l1 k2 l2 kk kk' /\ keyed (sc_st d1) kk).
      { unfold expire_stale_saved_key, mbind, get_sc, mret, mlift, upd. cbn [m_sc m_buf m_q]. unfold d1, d2. cbn [set_st set_ska sc_key sc_st].
        destruct (sc_key c) as [k|] eqn:K.
        - destruct (kp_allowed (k_possible k)) eqn:KA.
          + destruct HB as [[H1 H2]|(_ & H & _)]; [|congruence]. specialize (KY KA). destruct KY as [_ KY].
            assert (Nat.ltb (slines (k_stats k)) (slines (sh k1 l1 z)) = true) as -> by (unfold sh, l1; cbn [slines]; apply Nat.ltb_lt; lia).
            assert (Nat.ltb (slines (k_stats k)) (slines (sh k2 l2 z)) = true) as -> by (unfold sh, l2; cbn [slines]; apply Nat.ltb_lt; lia).
            cbn [andb orb]. destruct (kp_required (k_possible k)); [left; split; reflexivity|].
            right. eexists _, _. split; [reflexivity|]. split; [reflexivity|]. cbn. split; [split; [reflexivity|discriminate]|discriminate].
          + right. exists (Some k), (Some k). cbn [andb]. destruct c as [c1 c2 c3 c4 c5 c6]. cbn [sc_key] in K. subst c5. split; [reflexivity|]. split; [reflexivity|].
            cbn. rewrite KA. split; [split; [reflexivity|discriminate]|discriminate].
        - right. exists None, None. destruct c as [c1 c2 c3 c4 c5 c6]. cbn [sc_key] in K. subst c5. split; [reflexivity|]. split; [reflexivity|]. split; exact Logic.I. }
      unfold mbind at 1 3. rewrite E1, E2. unfold mbind. destruct EX as [[-> ->]|(kk & kk' & -> & -> & K1 & K2)]; [reflexivity|].
      pose proof (MS _ _ K1 K2) as M.
      exact (sim_after k1 l1 k2 l2 (q_inc q) (sread (sc_st c)) P1 P2 t o (sc_st d1) _ _ M (le_refl _)). }
    destruct (Bool.bool_dec x1 false) as [Y1|Y1]; [destruct (Bool.bool_dec x2 false) as [Y2|Y2]|].
    - (* the same column, no line break *)
      assert (n1 = 0) as -> by (apply B1, Y1). assert (n2 = 0) as -> by (apply B2, Y2).
      assert (L1 : List.length w1 = n) by (clear - F1 Y1; inversion F1; [reflexivity|congruence]).
      assert (L2 : List.length w2 = n) by (clear - F2 Y2; inversion F2; [reflexivity|congruence]).
      rewrite L2 in E2. rewrite L1 in E1.
      set (d := set_st (sadd (sc_st c) (sh n 0 z)) (if Nat.eqb (slines z + 0) 0 then c else set_ska true c)) in *.
      assert (OD : own d).
      { unfold d. pose proof OC as (A & B & C & D & E & F & G). unfold own. apply (moved_sc 0 0 0 0 0 (le_n 0) (le_n 0)).
        - destruct (Nat.eqb _ 0); [exact OC|]. repeat split; auto; apply E.
        - exists (sadd (sc_st c) (sh n 0 z)). split; apply sh00.
        - destruct (Nat.eqb _ 0); apply le_supd. }
      assert (LE : le_st (sc_st c) (sc_st d)) by (unfold d; cbn [set_st sc_st]; apply le_supd).
      assert (M : msim 0 0 0 0 0 0 t (mkMs rest d q) (mkMs rest d q)).
      { split; [reflexivity|]. split; [exact R|]. split; [exact OD|]. cbn [m_q m_sc]. eapply (qrel_le 0 0 0 0 (le_n 0) (le_n 0)); [exact OQ|exact LE]. }
      exists 0, 0, 0, 0, 0, 0, (sc_st d). repeat (split; [lia|]).
      pose proof (sim_bind 0 0 0 0 0 0 t (sc_st d) _ _ _ _ (sim_expire 0 0 0 0 0 0 (le_n 0) (le_n 0) t (sc_st d)) (sim_after 0 0 0 0 0 0 (le_n 0) (le_n 0) t o (sc_st d)) _ _ M (le_refl _)) as Z. cbn [m_sc] in Z.
      unfold mbind at 1 3. rewrite E1, E2. exact Z.
    - assert (HB : fresh) by (destruct X; [congruence|assumption]). apply HX. right. exact HB.
    - apply HX. destruct X as [X|X]; [left|right; exact X]. destruct x1, x2; try congruence; lia.
  Qed.
End First.

(** ** Readers in front of white space *)
Section Gap.
  Variables (o : flags) (a t w1 w2 : str) (x1 x2 : bool) (n : nat).
  Hypothesis NT : nc t.
  Hypothesis F1 : filler t w1 x1 n.
  Hypothesis F2 : filler t w2 x2 n.
  Definition before (r r' : reader) : Prop :=
    r_in r = Borrow (a ++ w1 ++ t) /\ r_in r' = Borrow (a ++ w2 ++ t) /\ r_opts r' = r_opts r /\
    r_sc r' = r_sc r /\ r_q r' = r_q r /\ sc_offset (r_sc r) = List.length a /\
    own (r_sc r) /\ ownq (sc_st (r_sc r)) (r_q r) /\ sc_state (r_sc r) <> SStart /\ (x1 = x2 \/ fresh (r_sc r)) /\
    sread (sc_st (r_sc r)) <= List.length a.

  Lemma from_gap w x : filler t w x n -> get_from (a ++ w ++ t) (List.length a) = Some (w ++ t).
  Proof.
    intros F. unfold get_from.
    assert (E : skipn (List.length a) (a ++ w ++ t) = w ++ t) by (rewrite skipn_app, skipn_all, Nat.sub_diag; reflexivity).
    rewrite nc_boundary; [rewrite E; reflexivity|rewrite app_length; lia|]. rewrite E. exact (filler_nc (no_extend o) eq_refl _ _ _ _ F NT).
  Qed.
  Lemma before_fill r r' : before r r' -> quiet_reader r -> quiet_reader r' ->
    match reader_scan r, reader_scan r' with
    | (r1, Ok _), (r1', Ok _) => before r1 r1' \/
        exists k1 l1 k2 l2 i0 p0, p0 <= k1 /\ p0 <= k2 /\ p0 <= List.length a /\ k1 + List.length w2 = k2 + List.length w1 /\
        rrel k1 l1 k2 l2 i0 p0 t (a ++ w1) (a ++ w2) r1 r1'
    | (_, Err e), (_, Err e') => e = e'
    | (_, Panic), (_, Panic) => True
    | _, _ => False
    end.
  Proof.
    intros (I & I' & O & C & Q & OF & OC & OQ & NS & X & PL) QR QR'.
    destruct (sc_state (r_sc r)) eqn:ST; [congruence| |].
    - (* a token is looked for *)
      pose proof (quiet_loop _ _ QR I) as N. pose proof (quiet_loop _ _ QR' I') as N'.
      destruct (first_rel (no_extend (r_opts r)) eq_refl t w1 w2 x1 x2 n NT F1 F2 (r_sc r) (r_q r) OC OQ X ST) as (k1 & l1 & k2 & l2 & i0 & p0 & lo & P1 & P2 & P3 & EQ & R).
      assert (Y : fillrel k1 l1 k2 l2 i0 p0 t (a ++ w1) (a ++ w2) (reader_scan r) (reader_scan r')).
      { rewrite app_assoc in I, I', N, N'.
        apply (loops_fill k1 l1 k2 l2 i0 p0 t (a ++ w1) (a ++ w2) r r'
          (List.length ((a ++ w1) ++ t) + 3 + (List.length ((a ++ w2) ++ t) + 3)) (List.length ((a ++ w2) ++ t) + 3 + (List.length ((a ++ w1) ++ t) + 3)) I I' O). cbv zeta.
        rewrite O in N'. split; [|split; [|split]].
        - rewrite scan_more by exact N. rewrite I. apply drive_loop.
        - rewrite scan_more by exact N'. rewrite I', O. apply drive_loop.
        - rewrite scan_more by exact N. exact N.
        - clear N N'. rewrite C, Q.
          replace (List.length ((a ++ w2) ++ t) + 3 + (List.length ((a ++ w1) ++ t) + 3)) with (List.length ((a ++ w1) ++ t) + 3 + (List.length ((a ++ w2) ++ t) + 3)) by lia.
          assert (exists f, List.length ((a ++ w1) ++ t) + 3 + (List.length ((a ++ w2) ++ t) + 3) = S f) as [f ->] by (exists (List.length ((a ++ w1) ++ t) + 2 + (List.length ((a ++ w2) ++ t) + 3)); lia).
          cbn [scan_loop]. assert (want_more (q_len (r_q r)) (r_sc r) (r_q r) = true) as -> by (unfold want_more; rewrite ST, Nat.eqb_refl; reflexivity).
          unfold scan_round. rewrite OF. rewrite <- !app_assoc, (from_gap w1 x1 F1), (from_gap w2 x2 F2). rewrite !app_assoc.
          pose proof (fun sc1 sc2 => res_rel k1 l1 k2 l2 i0 p0 P1 P2 t (a ++ w1) (a ++ w2) _ _ _ sc1 sc2 R) as Y.
          destruct (scan_next_token _ (mkMs (w1 ++ t) _ _)) as [s x], (scan_next_token _ (mkMs (w2 ++ t) _ _)) as [s' x']. cbn [fst snd] in Y.
          specialize (Y _ _ eq_refl eq_refl).
          destruct x as [[]|e| |], x' as [[]|e'| |]; cbn in R; try contradiction; try exact Y.
          apply loop_rel; [exact P1|exact P2|]. exact Y. }
      unfold fillrel in Y. destruct (reader_scan r) as [r1 [[]|e| |]], (reader_scan r') as [r1' [[]|e'| |]]; try contradiction; try exact Y.
      right. exists k1, l1, k2, l2, i0, p0. split; [exact P1|]. split; [exact P2|]. split; [lia|]. split; [exact EQ|exact Y].
    - (* after the end of the stream *)
      unfold reader_scan. rewrite I, I', O, C, Q. cbn [drive]. unfold scan_tokens.
      assert (L : forall f b, scan_loop f (no_extend (r_opts r)) b (q_len (r_q r)) (r_sc r) (r_q r) = (r_sc r, r_q r, Ok tt)).
      { intros f b. destruct f; cbn [scan_loop]; unfold want_more; rewrite ST; reflexivity. }
      rewrite !L. cbn [map_err]. left. unfold before. cbn [r_in r_opts r_sc r_q]. rewrite ST.
      repeat (split; [first [reflexivity|assumption|discriminate]|]). exact PL.
  Qed.
  Lemma before_pull r r' : before r r' ->
    before (mkReader (r_sc r) (snd (q_pop entry_cmp (r_q r))) (r_opts r) (r_exhausted r) (r_in r))
      (mkReader (r_sc r') (snd (q_pop entry_cmp (r_q r'))) (r_opts r') (r_exhausted r') (r_in r')) /\
    fst (q_pop entry_cmp (r_q r')) = fst (q_pop entry_cmp (r_q r)) /\
    (forall e, fst (q_pop entry_cmp (r_q r)) = Some e -> e_read e <= List.length a).
  Proof.
    intros (I & I' & O & C & Q & OF & OC & OQ & NS & X & PL).
    assert (Z : ownq (sc_st (r_sc r)) (snd (q_pop entry_cmp (r_q r))) /\ (forall e, fst (q_pop entry_cmp (r_q r)) = Some e -> e_read e <= List.length a)).
    { split.
      - pose proof (pop_rel 0 0 0 0 (le_n 0) (le_n 0) _ _ _ OQ) as P. destruct (q_pop entry_cmp (r_q r)) as [[e|] q1].
        + destruct P as (e' & q1' & E & _ & P). assert (q1' = q1) as -> by congruence. exact P.
        + destruct P as (q1' & E & P). assert (q1' = q1) as -> by congruence. exact P.
      - intros e E. unfold q_pop in E. destruct OQ as (_ & _ & _ & F). destruct F as [|y l Y F]; [discriminate|].
        pose proof (extract_all _ _ F _ Y) as [_ G]. destruct (extract entry entry_cmp y l) as [m r0]. cbn [fst] in *.
        assert (e = snd m) as -> by congruence. lia. }
    destruct Z as [Z1 Z2]. split; [|split; [rewrite Q; reflexivity|exact Z2]].
    unfold before. cbn [r_in r_opts r_sc r_q]. rewrite Q. repeat (split; [assumption || reflexivity|]). exact PL.
  Qed.
  Lemma before_consumes s : forall r r', before r r' -> quiet_reader r -> quiet_reader r' ->
    Forall2 (same_token (List.length a) (List.length w1) (List.length w2)) (fst (consumes r s)) (fst (consumes r' s)) /\
    same_end (snd (consumes r s)) (snd (consumes r' s)).
  Proof.
    induction s as [|[|] s IH]; intros r r' R Q Q'; cbn [consumes].
    - cbn [fst snd]. split; [constructor|exact Logic.I].
    - pose proof (before_fill _ _ R Q Q') as X. destruct (reader_scan r) as [r1 x] eqn:E, (reader_scan r') as [r1' x'] eqn:E'.
      destruct (quiet_fill _ _ _ Q E) as [N QN], (quiet_fill _ _ _ Q' E') as [N' QN'].
      destruct x as [u|e| |], x' as [u'|e'| |]; cbn in X; try contradiction.
      + pose proof (QN _ eq_refl) as G. pose proof (QN' _ eq_refl) as G'. destruct X as [X|(k1 & l1 & k2 & l2 & i0 & p0 & P1 & P2 & P3 & EQ & X)].
        * apply IH; assumption.
        * destruct (consumes_rel _ _ _ _ _ _ P1 P2 _ _ _ s _ _ X G G') as (A & B & _). split; [|exact B].
          eapply Forall2_impl'; [|exact A]. intros e e' [[-> H]|[(z & Z1 & Z2) H]].
          -- split; [reflexivity|]. left. split; [lia|reflexivity].
          -- split; [exact H|]. right. lia.
      + cbn [fst snd]. split; [constructor|exact X].
      + cbn [fst snd]. split; [constructor|exact X].
    - destruct (before_pull _ _ R) as (R1 & E & L). pose proof (quiet_pull _ Q) as Q1. pose proof (quiet_pull _ Q') as Q1'.
      destruct (q_pop entry_cmp (r_q r)) as [e q1], (q_pop entry_cmp (r_q r')) as [e' q1']. cbn [fst snd] in *. subst e'.
      specialize (IH _ _ R1 Q1 Q1'). destruct (consumes (mkReader _ q1 _ _ _) s) as [l2' y], (consumes (mkReader _ q1' _ _ _) s) as [l2'' y'].
      cbn [fst snd] in *. destruct IH as [A B]. split; [|exact B]. destruct e as [e|]; [|exact A]. constructor; [|exact A].
      split; [reflexivity|]. left. split; [apply L; reflexivity|reflexivity].
  Qed.
End Gap.

(** ** Between tokens *)
Lemma gap_between a t w1 w2 x n o s0 l l' r r' : well_formed (a ++ w1 ++ t) -> well_formed (a ++ w2 ++ t) -> well_formed t ->
  filler t w1 x n -> filler t w2 x n ->
  consumes (open (a ++ w1 ++ t) o) s0 = (l, Ok r) -> consumes (open (a ++ w2 ++ t) o) s0 = (l', Ok r') ->
  r_sc r' = r_sc r -> r_q r' = r_q r -> sc_offset (r_sc r) = List.length a -> sc_state (r_sc r) <> SStart ->
  forall s, Forall2 (same_token (List.length a) (List.length w1) (List.length w2)) (fst (consumes r s)) (fst (consumes r' s)) /\
    same_end (snd (consumes r s)) (snd (consumes r' s)).
Proof.
  intros V1 V2 VT F1 F2 E1 E2 C Q OF NS s. apply Utf8Facts.valid_iff in V1, V2, VT.
  destruct (reach_own _ _ _ _ _ V1 E1) as (OC & OQ & I & QR & O). destruct (reach_own _ _ _ _ _ V2 E2) as (_ & _ & I' & QR' & O').
  apply (before_consumes o a t w1 w2 x x n (valid_nc _ VT) F1 F2); [|exact QR|exact QR'].
  unfold before. repeat (split; [assumption || congruence || (left; reflexivity)|]).
  destruct (stream_stage _ _ V1 _ _ _ E1) as (b & h & IV & G & _). pose proof (i_pos _ _ _ _ _ IV) as P.
  unfold stands, get_from in G. rewrite OF in G. destruct (is_boundary _ _); [|discriminate].
  assert (b = skipn (List.length a) (a ++ w1 ++ t)) as -> by congruence. rewrite skipn_length, !app_length in P. lia.
Qed.

(** ** At the beginning *)
Definition began (t : str) (o : flags) (ex : bool) : reader :=
  mkReader (mkSc 0 SStream true stats0 None cxt0) (q_push q_new (mkEntry (Tok TStreamStart) 0)) o ex (Borrow t).
Lemma open_fill t o ex : nc t -> reader_scan (mkReader scanner0 q_new o ex (Borrow t)) = (began t o false, Ok tt).
Proof.
  intros N. unfold reader_scan. cbn [r_opts r_in r_sc r_q drive]. unfold scan_tokens. cbn [q_len q_new q_heap List.length].
  replace (List.length t + 3) with (S (List.length t + 2)) by lia. cbn [scan_loop]. unfold want_more at 1. cbn [scanner0 sc_state sc_key key_possible_now q_len q_new q_heap List.length Nat.eqb orb].
  unfold scan_round. cbn [sc_offset scanner0]. unfold get_from. cbn [is_boundary skipn].
  unfold scan_next_token, fetch_stream_start, enqueue_here, enqueue, mbind, get_sc, upd.
  cbn [m_sc m_buf m_q sc_state set_ska set_state sc_st sread stats0 scanner0 fst snd set_offset sc_ska sc_key sc_cxt sc_offset q_push q_new q_heap q_inc app]. rewrite Nat.sub_diag.
  destruct (List.length t + 2) as [|f] eqn:E; [lia|]. cbn [scan_loop]. unfold want_more. cbn [sc_state sc_key key_possible_now q_len q_heap List.length Nat.eqb orb].
  reflexivity.
Qed.
Lemma began_before t w1 w2 o x1 x2 n : nc t -> filler t w1 x1 n -> filler t w2 x2 n ->
  before [] t w1 w2 x1 x2 (began (w1 ++ t) o false) (began (w2 ++ t) o false).
Proof.
  intros N F1 F2. unfold before, began. cbn [r_in r_opts r_sc r_q app List.length sc_offset sc_state sc_st sread].
  repeat (split; [reflexivity|]). split; [|split; [|split; [discriminate|split; [right|cbn; lia]]]].
  - unfold own, screl. cbn [sc_state sc_ska sc_st sc_key sc_cxt]. repeat split; auto; try constructor. exists stats0. split; reflexivity.
  - unfold ownq, qrel, q_push, q_new. cbn [q_inc q_heap app]. split; [reflexivity|]. split; [lia|]. split.
    + constructor; [|constructor]. split; [reflexivity|]. right. cbn [fst snd]. split; [lia|]. split; [exists 0; split; reflexivity|reflexivity].
    + constructor; [|constructor]. cbn. lia.
  - unfold fresh. cbn. auto.
Qed.
Lemma gap_leading t w1 w2 x1 x2 n o : well_formed (w1 ++ t) -> well_formed (w2 ++ t) -> well_formed t ->
  filler t w1 x1 n -> filler t w2 x2 n ->
  forall s, Forall2 (same_token 0 (List.length w1) (List.length w2)) (fst (consumes (open (w1 ++ t) o) s)) (fst (consumes (open (w2 ++ t) o) s)) /\
    same_end (snd (consumes (open (w1 ++ t) o) s)) (snd (consumes (open (w2 ++ t) o) s)).
Proof.
  intros V1 V2 VT F1 F2. apply Utf8Facts.valid_iff in V1, V2, VT. pose proof (valid_nc _ VT) as NT.
  pose proof (open_quiet _ o V1) as Q1. pose proof (open_quiet _ o V2) as Q2. unfold open, reader_new in *.
  intros s. induction s as [|[|] s IH].
  - cbn. split; [constructor|exact Logic.I].
  - pose proof (open_fill (w1 ++ t) o false (valid_nc _ V1)) as E1. pose proof (open_fill (w2 ++ t) o false (valid_nc _ V2)) as E2.
    destruct (quiet_fill _ _ _ Q1 E1) as [_ G1]. destruct (quiet_fill _ _ _ Q2 E2) as [_ G2].
    cbn [consumes]. rewrite E1, E2. 
    exact (before_consumes o [] t w1 w2 x1 x2 n NT F1 F2 s _ _ (began_before t w1 w2 o x1 x2 n NT F1 F2) (G1 _ eq_refl) (G2 _ eq_refl)).
  - cbn [consumes r_q q_pop q_new q_heap r_sc r_opts r_exhausted r_in]. 
    destruct (consumes (mkReader scanner0 q_new o false (Borrow (w1 ++ t))) s) as [l y], (consumes (mkReader scanner0 q_new o false (Borrow (w2 ++ t))) s) as [l' y'].
    exact IH.
Qed.

(** ** Comments beyond ASCII *)
Lemma wide_comment :
  let t := bytes "a" in
  let w1 := bytes "#e" ++ [10%N] in
  let w2 := [35; 195; 169; 10]%N in
  well_formed (w1 ++ t) /\ well_formed (w2 ++ t) /\
  exists l1 r1 l2, consumes (open (w1 ++ t) (mkFlags false false)) [Fill; Fill] = (l1, Ok r1) /\
    consumes (open (w2 ++ t) (mkFlags false false)) [Fill; Fill] = (l2, Panic).
Proof.
  cbv zeta. split; [apply Utf8Facts.valid_iff; reflexivity|]. split; [apply Utf8Facts.valid_iff; reflexivity|].
  eexists _, _, _. split; vm_compute; reflexivity.
Qed.
