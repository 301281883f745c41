(** Two scanners on the same remaining text, at different positions and lines. *)
From Verif Require Import StreamFacts.
From Verif Require Export GapEat.
From Coq Require Import Lia ZifyBool ZifyN ZifyNat.
Open Scope nat_scope.

(** ** Scalars at different positions *)
Definition shm (k l : nat) (m : maybe_token) : maybe_token := match m with Lazy d => Lazy (shd k l d) | m => m end.
Definition shx (k l : nat) (x : maybe_token * nat * stats) : maybe_token * nat * stats :=
  (shm k l (fst (fst x)), snd (fst x), sh k l (snd x)).
Lemma shm_token k l m : into_token (shm k l m) = into_token m.
Proof. destruct m as [t|d]; [reflexivity|]. apply eval_sh. Qed.
Lemma plain_sh k l o b st c : scan_plain_scalar o b (sh k l st) c = rmap (shx k l) (scan_plain_scalar o b st c).
Proof.
  unfold scan_plain_scalar. cbv zeta. destruct (lazy_mode o).
  - rewrite plain_lazy_sh, bind_rmap, rmap_bind. apply bind_ext. intros [[d n] s]. reflexivity.
  - rewrite plain_eager_sh, bind_rmap, rmap_bind. apply bind_ext. intros [[d n] s]. reflexivity.
Qed.
Lemma block_sh k l o b st c fold : scan_block_scalar o b (sh k l st) c fold = rmap (shx k l) (scan_block_scalar o b st c fold).
Proof.
  unfold scan_block_scalar. cbv zeta. destruct (lazy_mode o).
  - rewrite block_lazy_sh, bind_rmap, rmap_bind. apply bind_ext. intros [[d n] s]. reflexivity.
  - rewrite block_eager_sh, bind_rmap, rmap_bind. apply bind_ext. intros [[d n] s]. reflexivity.
Qed.
Definition le_st (a b : stats) : Prop := sread a <= sread b /\ slines a <= slines b.
Lemma le_refl a : le_st a a. Proof. split; lia. Qed.
Lemma le_trans a b c : le_st a b -> le_st b c -> le_st a c. Proof. unfold le_st. lia. Qed.
Lemma sh_zero st : st = sh (sread st) (slines st) (mkStats 0 0 (scol st)).
Proof. destruct st. reflexivity. Qed.
Lemma plain_le o b st c m n st' : scan_plain_scalar o b st c = Ok (m, n, st') -> le_st st st'.
Proof.
  rewrite (sh_zero st), plain_sh. destruct (scan_plain_scalar _ _ _ _) as [[[m1 n1] s1]| | |]; cbn [rmap bind]; try discriminate.
  intros E. assert (Q : shx (sread st) (slines st) (m1, n1, s1) = (m, n, st')) by congruence. apply (f_equal snd) in Q. cbn [shx snd] in Q. subst st'. unfold le_st, sh. cbn [sread slines]. lia.
Qed.
Lemma block_le o b st c fold m n st' : scan_block_scalar o b st c fold = Ok (m, n, st') -> le_st st st'.
Proof.
  rewrite (sh_zero st), block_sh. destruct (scan_block_scalar _ _ _ _ _) as [[[m1 n1] s1]| | |]; cbn [rmap bind]; try discriminate.
  intros E. assert (Q : shx (sread st) (slines st) (m1, n1, s1) = (m, n, st')) by congruence. apply (f_equal snd) in Q. cbn [shx snd] in Q. subst st'. unfold le_st, sh. cbn [sread slines]. lia.
Qed.

Lemma le_supd st n i c : le_st st (supd st n i c).
Proof. unfold le_st, supd. cbn [sread slines]. lia. Qed.

Section Sim.
  Variables k1 l1 k2 l2 : nat.
  (** Tokens queued before: their last mark and last position. *)
  Variables i0 p0 : nat.
  Hypothesis P1 : p0 <= k1.
  Hypothesis P2 : p0 <= k2.
  (** The common text. *)
  Variable T : str.

  Definition strel (a b : stats) : Prop := exists z, a = sh k1 l1 z /\ b = sh k2 l2 z.
  Definition posrel (a b : nat) : Prop := exists z, a = z + k1 /\ b = z + k2.
  Definition lrel (a b : nat) : Prop := (exists z, a = z + l1 /\ b = z + l2) \/ (a < l1 /\ b < l2).
  Definition ierel (a b : indent_entry) : Prop :=
    ie_indent b = ie_indent a /\ ie_map b = ie_map a /\ ie_zero b = ie_zero a /\ lrel (ie_line a) (ie_line b).
  Definition cxrel (a b : context) : Prop :=
    c_flow b = c_flow a /\ c_indent b = c_indent a /\ c_started b = c_started a /\ Forall2 ierel (c_indents a) (c_indents b).
  Definition krel (a b : option key_save) : Prop :=
    match a, b with
    | None, None => True
    | Some a, Some b => k_possible b = k_possible a /\ (kp_allowed (k_possible a) = true -> strel (k_stats a) (k_stats b))
    | _, _ => False
    end.
  Definition lined (st : stats) (c : context) : Prop := Forall (fun e => ie_line e <= slines st) (c_indents c).
  Definition keyed (st : stats) (k : option key_save) : Prop :=
    match k with Some k => kp_allowed (k_possible k) = true -> le_st (k_stats k) st | None => True end.
  Definition screl (a b : scanner) : Prop :=
    sc_state b = sc_state a /\ sc_ska b = sc_ska a /\ strel (sc_st a) (sc_st b) /\ krel (sc_key a) (sc_key b) /\
    cxrel (sc_cxt a) (sc_cxt b) /\ lined (sc_st a) (sc_cxt a) /\ keyed (sc_st a) (sc_key a).
  Definition erel (a b : entry) : Prop := posrel (e_read a) (e_read b) /\ into_token (e_wrap b) = into_token (e_wrap a).
  Definition hrel (a b : nat * entry) : Prop :=
    fst b = fst a /\ ((snd b = snd a /\ e_read (snd a) <= p0 /\ fst a <= i0) \/ (i0 < fst a /\ erel (snd a) (snd b))).
  Definition qrel (st : stats) (q q' : tokens) : Prop :=
    q_inc q' = q_inc q /\ i0 <= q_inc q /\ Forall2 hrel (q_heap q) (q_heap q') /\
    Forall (fun x => fst x <= q_inc q /\ e_read (snd x) <= sread st) (q_heap q).
  Definition inT (b : str) : Prop := nc b /\ exists n, n <= List.length T /\ b = skipn n T.
  Definition msim (s s' : ms) : Prop :=
    m_buf s' = m_buf s /\ inT (m_buf s) /\ screl (m_sc s) (m_sc s') /\ qrel (sc_st (m_sc s)) (m_q s) (m_q s').

  (** ** The queue *)
  Lemma qrel_len st q q' : qrel st q q' -> q_len q' = q_len q.
  Proof. intros (_ & _ & H & _). unfold q_len. induction H; cbn [List.length]; congruence. Qed.
  Lemma qrel_push st q q' a b : qrel st q q' -> erel a b -> e_read a <= sread st -> qrel st (q_push q a) (q_push q' b).
  Proof.
    intros (J & I & H & F) E L. unfold q_push. split; cbn [q_inc q_heap]; [congruence|]. split; [lia|]. split.
    - apply Forall2_app; [exact H|]. constructor; [|constructor]. split; cbn [fst snd]; [congruence|]. right. split; [lia|exact E].
    - apply Forall_app. split; [eapply Forall_impl; [|exact F]; cbn; lia|]. constructor; [|constructor]. cbn [fst snd]. lia.
  Qed.
  Lemma qrel_le st st' q q' : qrel st q q' -> le_st st st' -> qrel st' q q'.
  Proof. intros (J & I & H & F) [L _]. repeat split; auto. eapply Forall_impl; [|exact F]. cbn. lia. Qed.
  Lemma lt_rel a a' b b' : hrel a a' -> hrel b b' -> q_lt entry entry_cmp a' b' = q_lt entry entry_cmp a b.
  Proof.
    intros (FA & HA) (FB & HB). unfold q_lt, entry_cmp. rewrite FA, FB.
    destruct HA as [(-> & LA & IA)|(IA & (za & RA & RA') & _)], HB as [(-> & LB & IB)|(IB & (zb & RB & RB') & _)].
    - reflexivity.
    - rewrite RB, RB'. destruct (Nat.compare_spec (e_read (snd a)) (zb + k1)), (Nat.compare_spec (e_read (snd a)) (zb + k2)); try reflexivity; try lia; symmetry; try (apply Nat.ltb_lt; lia); exfalso; lia.
    - rewrite RA, RA'. destruct (Nat.compare_spec (za + k1) (e_read (snd b))), (Nat.compare_spec (za + k2) (e_read (snd b))); try reflexivity; try lia; symmetry; try (apply Nat.ltb_ge; lia); exfalso; lia.
    - rewrite RA, RA', RB, RB'. destruct (Nat.compare_spec (za + k1) (zb + k1)), (Nat.compare_spec (za + k2) (zb + k2)); try reflexivity; exfalso; lia.
  Qed.
  Lemma extract_rel l l' : Forall2 hrel l l' -> forall x x', hrel x x' ->
    hrel (fst (extract entry entry_cmp x l)) (fst (extract entry entry_cmp x' l')) /\
    Forall2 hrel (snd (extract entry entry_cmp x l)) (snd (extract entry entry_cmp x' l')).
  Proof.
    induction 1 as [|y y' l l' Y H IH]; intros x x' X; cbn [extract].
    - split; [exact X|constructor].
    - specialize (IH y y' Y). destruct (extract entry entry_cmp y l) as [m r], (extract entry entry_cmp y' l') as [m' r'].
      cbn [fst snd] in IH. destruct IH as [IH1 IH2].
      rewrite (lt_rel _ _ _ _ IH1 X). destruct (q_lt entry entry_cmp m x); cbn [fst snd]; split; auto.
  Qed.
  Lemma extract_all (P : nat * entry -> Prop) l : Forall P l -> forall x, P x -> Forall P (snd (extract entry entry_cmp x l)) /\ P (fst (extract entry entry_cmp x l)).
  Proof.
    induction 1 as [|y l Y H IH]; intros x X; cbn [extract]; [split; [constructor|exact X]|].
    specialize (IH y Y). destruct (extract entry entry_cmp y l) as [m r]. cbn [fst snd] in IH. destruct IH as [IH1 IH2].
    destruct (q_lt entry entry_cmp m x); cbn [fst snd]; split; auto.
  Qed.
  Definition outrel (e e' : entry) : Prop := (e' = e /\ e_read e <= p0) \/ erel e e'.
  Lemma pop_rel st q q' : qrel st q q' ->
    match q_pop entry_cmp q with
    | (Some e, q1) => exists e' q1', q_pop entry_cmp q' = (Some e', q1') /\ outrel e e' /\ qrel st q1 q1'
    | (None, q1) => exists q1', q_pop entry_cmp q' = (None, q1') /\ qrel st q1 q1'
    end.
  Proof.
    intros Q. pose proof Q as (J & I & H & F). unfold q_pop. inversion H as [E E'|x x' l l' X HL E E'].
    - exists q'. split; [reflexivity|]. exact Q.
    - destruct (extract_rel _ _ HL _ _ X) as [M R]. rewrite <- E in F. inversion F as [|y m0 FX FL EY]; subst.
      pose proof (extract_all _ _ FL _ FX) as [A _].
      destruct (extract entry entry_cmp x l) as [m r], (extract entry entry_cmp x' l') as [m' r'].
      cbn [fst snd] in M, R, A. do 2 eexists. split; [reflexivity|]. split.
      + destruct M as (_ & [(M1 & M2 & _)|(_ & M)]); [left; auto|right; exact M].
      + split; [exact J|]. split; [exact I|]. split; [exact R|exact A].
  Qed.

  (** ** Related methods *)
  Definition simres (st : stats) (x x' : ms * sres unit) : Prop :=
    match x, x' with
    | (s1, Ok _), (s1', Ok _) => msim s1 s1' /\ le_st st (sc_st (m_sc s1))
    | (_, Err e), (_, Err e') => e = e'
    | (_, Panic), (_, Panic) => True
    | (_, Fuel), (_, Fuel) => True
    | _, _ => False
    end.
  Definition sim (lo : stats) (m m' : M unit) : Prop :=
    forall s s', msim s s' -> le_st lo (sc_st (m_sc s)) -> simres (sc_st (m_sc s)) (m s) (m' s').

  Lemma sim_ret lo : sim lo (mret tt) (mret tt).
  Proof. intros s s' S L. split; [exact S|apply le_refl]. Qed.
  Lemma sim_err lo r : (forall x, r <> Ok x) -> sim lo (mlift r) (mlift r).
  Proof. intros H s s' S L. unfold simres, mlift. destruct r; auto. exfalso. eapply H. reflexivity. Qed.
  Lemma sim_bind lo (m m' k k' : M unit) : sim lo m m' -> sim lo k k' -> sim lo (m ;; k) (m' ;; k').
  Proof.
    intros H K s s' S L. specialize (H s s' S L). unfold simres, mbind in *.
    destruct (m s) as [s1 [[]| | |]], (m' s') as [s1' [[]| | |]]; auto; try contradiction.
    destruct H as [S1 L1]. pose proof (K s1 s1' S1 (le_trans _ _ _ L L1)) as X. unfold simres in X.
    destruct (k s1) as [s2 [[]| | |]], (k' s1') as [s2' [[]| | |]]; auto; try contradiction. destruct X as [X1 X2]. split; [exact X1|]. eapply le_trans; eassumption.
  Qed.
  Lemma sim_buf lo (k k' : str -> M unit) : (forall b, sim lo (k b) (k' b)) -> sim lo (mbind get_buf k) (mbind get_buf k').
  Proof.
    intros K s s' S L. pose proof S as (B & _). pose proof (K (m_buf s) s s' S L) as X. unfold simres, mbind, get_buf in *. rewrite B. exact X.
  Qed.
  Lemma sim_sc lo (k k' : scanner -> M unit) : (forall c c', screl c c' -> le_st lo (sc_st c) -> sim (sc_st c) (k c) (k' c')) ->
    sim lo (mbind get_sc k) (mbind get_sc k').
  Proof.
    intros K s s' S L. pose proof S as (_ & _ & B & _). exact (K _ _ B L s s' S (le_refl _)).
  Qed.
  Lemma sim_lift {A} lo (r : sres A) (k k' : A -> M unit) : (forall a, sim lo (k a) (k' a)) -> sim lo (mbind (mlift r) k) (mbind (mlift r) k').
  Proof. intros K s s' S L. unfold simres, mbind, mlift. destruct r as [a| | |]; auto. apply (K a s s' S L). Qed.
  Lemma sim_upd lo f f' :
    (forall c c', le_st lo (sc_st c) -> screl c c' -> screl (f c) (f' c') /\ le_st (sc_st c) (sc_st (f c))) -> sim lo (upd f) (upd f').
  Proof.
    intros H s s' (B & G & C & Q) L. destruct (H _ _ L C) as [C1 L1]. unfold simres, upd. cbn [m_sc]. split; [|exact L1].
    split; [exact B|]. split; [exact G|]. split; [exact C1|]. cbn [m_q m_sc]. eapply qrel_le; eassumption.
  Qed.
  Lemma sim_enqueue lo t t' r r' : into_token t' = into_token t -> posrel r r' -> r <= sread lo -> sim lo (enqueue t r) (enqueue t' r').
  Proof.
    intros E R L s s' (B & G & C & Q) [LS _]. unfold simres, enqueue. cbn [m_sc]. split; [|apply le_refl].
    split; [exact B|]. split; [exact G|]. split; [exact C|]. cbn [m_q m_sc]. apply qrel_push; [exact Q|split; assumption|cbn [e_read]; lia].
  Qed.
  Lemma strel_pos a b : strel a b -> posrel (sread a) (sread b).
  Proof. intros (z & -> & ->). exists (sread z). split; reflexivity. Qed.
  Lemma strel_line a b : strel a b -> lrel (slines a) (slines b).
  Proof. intros (z & -> & ->). left. exists (slines z). split; reflexivity. Qed.
  Lemma strel_col a b : strel a b -> scol b = scol a.
  Proof. intros (z & -> & ->). reflexivity. Qed.
  Lemma sim_here lo t t' : into_token t' = into_token t -> sim lo (enqueue_here t) (enqueue_here t').
  Proof. intros E. unfold enqueue_here. apply sim_sc. intros c c' (_ & _ & S & _) L. apply sim_enqueue; [exact E|apply strel_pos, S|lia]. Qed.
  Lemma sim_ends lo n r r' : posrel r r' -> r <= sread lo -> sim lo (enqueue_ends n r) (enqueue_ends n r').
  Proof.
    intros R L. induction n as [|n IH]; cbn [enqueue_ends]; [apply sim_ret|]. apply sim_bind; [apply sim_enqueue; auto|exact IH].
  Qed.
  Lemma sim_advance lo n : sim lo (advance n) (advance n).
  Proof.
    intros s s' (B & (N & m & LM & EM) & C & Q) L. unfold simres, advance, mbind, get_buf, mlift, put_buf. rewrite B.
    destruct (skip (m_buf s) n) as [r| | |] eqn:E; auto. cbn [m_sc]. split; [|apply le_refl].
    split; [reflexivity|]. split; [|split; [exact C|exact Q]]. cbn [m_buf].
    unfold skip in E. destruct (is_boundary _ _) eqn:BD; [|discriminate]. assert (r = skipn n (m_buf s)) as -> by congruence.
    split; [apply boundary_nc; assumption|]. rewrite EM. rewrite skipn_skipn. destruct (Nat.le_gt_cases (m + n) (List.length T)).
    - exists (m + n). split; [lia|reflexivity].
    - exists (List.length T). split; [lia|]. rewrite !skipn_all2 by lia. reflexivity.
  Qed.

  (** ** Updates *)
  Lemma upd_state lo x : sim lo (upd (set_state x)) (upd (set_state x)).
  Proof. apply sim_upd. intros c c' _ (A & B & C & D & E & F & G). split; [|apply le_refl]. repeat split; auto; apply E. Qed.
  Lemma upd_ska lo x : sim lo (upd (set_ska x)) (upd (set_ska x)).
  Proof. apply sim_upd. intros c c' _ (A & B & C & D & E & F & G). split; [|apply le_refl]. repeat split; auto; apply E. Qed.
  Lemma upd_key lo k k' : krel k k' -> keyed lo k -> sim lo (upd (set_key k)) (upd (set_key k')).
  Proof.
    intros K KL. apply sim_upd. intros c c' L (A & B & C & D & E & F & G). split; [|apply le_refl]. repeat split; auto; try apply E.
    cbn [set_key sc_key sc_st]. unfold keyed in *. destruct k; auto. intros X. eapply le_trans; [apply KL, X|exact L].
  Qed.
  Lemma upd_cxt lo k k' : cxrel k k' -> lined lo k -> sim lo (upd (set_cxt k)) (upd (set_cxt k')).
  Proof.
    intros K KL. apply sim_upd. intros c c' L (A & B & C & D & E & F & G). split; [|apply le_refl]. repeat split; auto; try apply K.
    cbn [set_cxt sc_cxt sc_st]. eapply Forall_impl; [|exact KL]. cbn. intros e H. destruct L. lia.
  Qed.
  Lemma strel_supd a b n i c : strel a b -> strel (supd a n i c) (supd b n i c).
  Proof. intros (z & -> & ->). exists (supd z n i c). rewrite !supd_sh. split; reflexivity. Qed.
  Lemma moved_sc c c' st st' : screl c c' -> strel st st' -> le_st (sc_st c) st -> screl (set_st st c) (set_st st' c').
  Proof.
    intros (A & B & C & D & E & F & G) S L. split; [exact A|]. split; [exact B|]. split; [exact S|]. split; [exact D|]. split; [exact E|].
    cbn [set_st sc_st sc_cxt sc_key]. split.
    - eapply Forall_impl; [|exact F]. cbn. intros e X. destruct L. lia.
    - unfold keyed in *. destruct (sc_key c); auto. intros X. eapply le_trans; [apply G, X|exact L].
  Qed.
  Lemma upd_supd lo n i c : sim lo (upd (fun sc => set_st (supd (sc_st sc) n i c) sc)) (upd (fun sc => set_st (supd (sc_st sc) n i c) sc)).
  Proof.
    apply sim_upd. intros a a' _ S. split; [|apply le_supd]. apply moved_sc; [exact S|apply strel_supd, S|apply le_supd].
  Qed.
  (** The position after a scalar. *)
  Lemma upd_st (st st' : stats) m m' k k' lo : strel st st' -> le_st lo st ->
    (forall s s1, m s = (s1, Ok tt) -> sc_st (m_sc s1) = sc_st (m_sc s)) -> sim lo m m' -> (forall lo', sim lo' k k') ->
    forall s s', msim s s' -> sc_st (m_sc s) = lo -> simres lo ((m ;; upd (set_st st) ;; k) s) ((m' ;; upd (set_st st') ;; k') s').
  Proof.
    intros ST LE KP MM KK s s' S ES. specialize (MM s s' S). rewrite ES in MM. specialize (MM (le_refl _)). specialize (KP s).
    unfold simres, mbind in *. destruct (m s) as [s1 [[]| | |]], (m' s') as [s1' [[]| | |]]; auto; try contradiction.
    specialize (KP s1 eq_refl). rewrite ES in KP. destruct MM as [(B & G & C & Q) _]. unfold upd.
    assert (S2 : msim (mkMs (m_buf s1) (set_st st (m_sc s1)) (m_q s1)) (mkMs (m_buf s1') (set_st st' (m_sc s1')) (m_q s1'))).
    { split; [exact B|]. split; [exact G|]. cbn [m_buf m_sc m_q]. split; [apply moved_sc; [exact C|exact ST|rewrite KP; exact LE]|].
      cbn [set_st sc_st]. eapply qrel_le; [exact Q|]. rewrite KP. exact LE. }
    pose proof (KK st _ _ S2 (le_refl _)) as X. unfold simres in X. cbn [m_sc set_st sc_st] in X.
    destruct (k _) as [s2 [[]| | |]], (k' _) as [s2' [[]| | |]]; auto; try contradiction. destruct X as [X1 X2]. split; [exact X1|]. eapply le_trans; eassumption.
  Qed.

  Lemma sim_advance_st lo n : sim lo (advance_st n) (advance_st n).
  Proof. unfold advance_st. apply sim_bind; [apply sim_advance|apply upd_supd]. Qed.
  Lemma sim_add lo d : sim lo (add_st d) (add_st d).
  Proof. unfold add_st, sadd. apply upd_supd. Qed.

  (** ** Contexts *)
  Lemma cx_block a b : cxrel a b -> is_block b = is_block a.
  Proof. intros (F & _). unfold is_block, is_flow. rewrite F. reflexivity. Qed.
  Lemma cx_flow a b : cxrel a b -> is_flow b = is_flow a.
  Proof. intros (F & _). unfold is_flow. rewrite F. reflexivity. Qed.
  Lemma cx_indent a b : cxrel a b -> cur_indent b = cur_indent a.
  Proof. intros (_ & I & S & _). unfold cur_indent. rewrite I, S. reflexivity. Qed.
  Lemma pop_indents_rel col l l' : Forall2 ierel l l' -> forall i,
    let '(j, r, n) := pop_indents l i col in let '(j', r', n') := pop_indents l' i col in
    j' = j /\ n' = n /\ Forall2 ierel r r' /\ forall P, Forall P l -> Forall P r.
  Proof.
    induction 1 as [|a b l l' E H IH]; intros i; cbn [pop_indents].
    - destruct (indent_gt i col); repeat split; auto.
    - destruct (indent_gt i col).
      + destruct E as (E1 & E). rewrite E1. specialize (IH (ie_indent a)).
        destruct (pop_indents l _ col) as [[j r] n], (pop_indents l' _ col) as [[j' r'] n']. destruct IH as (A & B & C & D).
        repeat split; auto. intros P F. inversion F; auto.
      + repeat split; auto.
  Qed.
  Lemma sim_unroll lo col : sim lo (unroll_indent col) (unroll_indent col).
  Proof.
    unfold unroll_indent. apply sim_sc. intros c c' (A & B & C & D & E & F & G) L. rewrite (cx_block _ _ E).
    destruct (is_block (sc_cxt c)) eqn:BL; [|apply sim_ret]. unfold indent_decrement. rewrite (cx_block _ _ E), BL.
    pose proof E as (E1 & E2 & E3 & E4). rewrite E2. pose proof (pop_indents_rel col _ _ E4 (c_indent (sc_cxt c))) as X.
    destruct (pop_indents (c_indents (sc_cxt c)) _ col) as [[j r] n], (pop_indents (c_indents (sc_cxt c')) _ col) as [[j' r'] n'].
    destruct X as (-> & -> & X & Y). apply sim_bind.
    - apply upd_cxt; [repeat split; auto|]. apply Y. exact F.
    - apply sim_ends; [apply strel_pos, C|lia].
  Qed.
  Lemma sim_roll lo r r' li li' col map : posrel r r' -> lrel li li' -> r <= sread lo -> li <= slines lo ->
    sim lo (roll_indent r li col map) (roll_indent r' li' col map).
  Proof.
    intros R LR L1 L2. unfold roll_indent. apply sim_sc. intros c c' (A & B & C & D & E & F & G) L. cbv zeta.
    rewrite (cx_block _ _ E), (cx_indent _ _ E). pose proof E as (E1 & E2 & E3 & E4).
    assert (Z : forall z, sim (sc_st c) (upd (set_cxt (indent_increment (sc_cxt c) col li map z)) ;; enqueue (Tok (if map then TBlockMappingStart else TBlockSequenceStart)) r)
      (upd (set_cxt (indent_increment (sc_cxt c') col li' map z)) ;; enqueue (Tok (if map then TBlockMappingStart else TBlockSequenceStart)) r')).
    { intros z. destruct L as [La Lb]. apply sim_bind.
      - apply upd_cxt.
        + unfold indent_increment. repeat split; auto. cbn [c_indents]. constructor; [|exact E4]. unfold ierel. cbn. auto.
        + unfold lined, indent_increment. cbn [c_indents]. constructor; [cbn; lia|exact F].
      - apply sim_enqueue; [reflexivity|exact R|lia]. }
    destruct (is_block (sc_cxt c)); [|apply sim_ret]. destruct (indent_ltb _ _); [apply Z|].
    destruct (negb map && _); [|apply sim_ret]. destruct E4 as [|x y l l' (_ & M & _) E4]; [apply sim_ret|]. rewrite M.
    destruct (ie_map x); [apply Z|apply sim_ret].
  Qed.
  Lemma sim_expire lo : sim lo expire_stale_saved_key expire_stale_saved_key.
  Proof.
    unfold expire_stale_saved_key. apply sim_sc. intros c c' (A & B & C & D & E & F & G) L.
    destruct (sc_key c) as [k|], (sc_key c') as [k'|]; cbn [krel] in D; try contradiction; [|apply sim_ret].
    destruct D as [K1 K2]. rewrite K1. destruct (kp_allowed (k_possible k)) eqn:KA; [|apply sim_ret].
    destruct (K2 eq_refl) as (z & Z1 & Z2). destruct C as (y & Y1 & Y2). cbn [andb].
    assert (X : Nat.ltb (slines (k_stats k')) (slines (sc_st c')) || (N.of_nat (sread (k_stats k')) + 1024 <? N.of_nat (sread (sc_st c')))%N =
      (Nat.ltb (slines (k_stats k)) (slines (sc_st c)) || (N.of_nat (sread (k_stats k)) + 1024 <? N.of_nat (sread (sc_st c)))%N)).
    { rewrite Z1, Z2, Y1, Y2. unfold sh. cbn [sread slines]. clear. f_equal; lia. }
    rewrite X. clear X. match goal with |- sim _ (if ?c then _ else _) _ => destruct c end; [|apply sim_ret]. destruct (kp_required _); [apply sim_err; discriminate|].
    apply upd_key; [|cbn; discriminate]. cbn. split; [reflexivity|discriminate].
  Qed.
  Lemma sim_remove lo : sim lo remove_saved_key remove_saved_key.
  Proof.
    unfold remove_saved_key. apply sim_sc. intros c c' (A & B & C & D & E & F & G) L.
    destruct (sc_key c) as [k|], (sc_key c') as [k'|]; cbn [krel] in D; try contradiction; [|apply sim_ret].
    destruct D as [K1 K2]. rewrite K1. apply sim_bind; [apply upd_key; exact Logic.I|].
    destruct (kp_required _); [apply sim_err; discriminate|apply sim_ret].
  Qed.
  Lemma sim_save lo r : sim lo (save_key r) (save_key r).
  Proof.
    unfold save_key. apply sim_sc. intros c c' (A & B & C & D & E & F & G) L. cbv zeta.
    rewrite (cx_block _ _ E), (cx_indent _ _ E), B, (strel_col _ _ C). destruct (sc_ska c); [|apply sim_ret].
    apply sim_bind; [apply sim_remove|]. apply upd_key; [|cbn; intros _; apply le_refl]. cbn. split; [reflexivity|]. intros _. exact C.
  Qed.
  Lemma line_lt c c' e e' : screl c c' -> ierel e e' -> Nat.ltb (ie_line e') (slines (sc_st c')) = Nat.ltb (ie_line e) (slines (sc_st c)).
  Proof.
    intros (_ & _ & (z & -> & ->) & _) (_ & _ & _ & [(y & -> & ->)|[X Y]]); unfold sh; cbn [slines]; lia.
  Qed.
  Lemma sim_zero lo : sim lo pop_zero_indent_sequence pop_zero_indent_sequence.
  Proof.
    unfold pop_zero_indent_sequence. apply sim_sc. intros c c' SC L. pose proof SC as (A & B & C & D & E & F & G). apply sim_buf. intros b.
    pose proof E as (E1 & E2 & E3 & E4). unfold pop_indent. unfold lined in F. destruct E4 as [|x y l l' I E4]; [apply sim_ret|].
    rewrite (line_lt _ _ _ _ SC I). destruct I as (I1 & I2 & I3 & I4). rewrite I1, I2, I3. destruct (_ && _ && _ && _); [|apply sim_ret].
    apply sim_bind; [apply upd_cxt|].
    - repeat split; auto.
    - unfold lined. cbn [c_indents]. inversion F; assumption.
    - apply sim_ends; [apply strel_pos, C|lia].
  Qed.

  (** ** Tokens *)
  Ltac step :=
    match goal with
    | |- sim _ (mbind get_buf _) _ => apply sim_buf; intros ?
    | |- sim _ (mbind (mlift _) _) _ => apply sim_lift; intros
    | |- sim _ (mbind _ _) _ => apply sim_bind
    | |- sim _ (mret _) _ => apply sim_ret
    | |- sim _ (mlift (Err _)) _ => apply sim_err; discriminate
    | |- sim _ (upd (set_ska _)) _ => apply upd_ska
    | |- sim _ (upd (set_state _)) _ => apply upd_state
    | |- sim _ (enqueue_here _) _ => apply sim_here; reflexivity
    | |- sim _ (advance _) _ => apply sim_advance
    | |- sim _ (advance_st _) _ => apply sim_advance_st
    | |- sim _ (add_st _) _ => apply sim_add
    | |- sim _ (unroll_indent _) _ => apply sim_unroll
    | |- sim _ remove_saved_key _ => apply sim_remove
    | |- sim _ (save_key _) _ => apply sim_save
    | |- sim _ expire_stale_saved_key _ => apply sim_expire
    | |- sim _ pop_zero_indent_sequence _ => apply sim_zero
    | |- sim _ (if ?c then _ else _) (if ?c then _ else _) => destruct c eqn:?
    | |- sim _ (let '(_, _) := ?x in _) _ => destruct x
    | |- sim _ (let _ := _ in _) _ => cbv zeta
    end.
  Ltac steps := repeat step.
  Ltac sc_step := apply sim_sc; intros c c' SC L; pose proof SC as (A & B & C & D & E & F & G);
    rewrite ?A, ?B, ?(cx_block _ _ E), ?(cx_flow _ _ E), ?(cx_indent _ _ E), ?(strel_col _ _ C).

  Lemma sim_eat o lo : sim lo (sc_eat_whitespace o) (sc_eat_whitespace o).
  Proof. unfold sc_eat_whitespace. steps. Qed.
  Lemma sim_start lo : sim lo fetch_stream_start fetch_stream_start.
  Proof. unfold fetch_stream_start. sc_step. destruct (sc_state c); steps. Qed.
  Lemma sim_end lo : sim lo fetch_stream_end fetch_stream_end.
  Proof. unfold fetch_stream_end. sc_step. apply sim_buf. intros b. destruct (sc_state c); steps. Qed.
  Lemma sim_marker lo st : sim lo (fetch_document_marker st) (fetch_document_marker st).
  Proof. unfold fetch_document_marker. steps. Qed.
  Lemma sim_directive o lo : sim lo (fetch_directive o) (fetch_directive o).
  Proof. unfold fetch_directive. steps. Qed.
  Lemma sim_tag o lo : sim lo (fetch_tag o) (fetch_tag o).
  Proof. unfold fetch_tag. steps. Qed.
  Lemma sim_anchor o lo : sim lo (fetch_anchor o) (fetch_anchor o).
  Proof. unfold fetch_anchor. steps. Qed.
  Lemma sim_flow_scalar o lo : sim lo (fetch_flow_scalar o) (fetch_flow_scalar o).
  Proof. unfold fetch_flow_scalar. steps. Qed.
  Lemma sim_explicit lo : sim lo fetch_explicit_key fetch_explicit_key.
  Proof.
    unfold fetch_explicit_key. sc_step. cbv zeta.
    apply sim_bind; [|steps]. destruct (is_block _); [|steps]. destruct (negb _); [steps|].
    apply sim_roll; [apply strel_pos, C|apply strel_line, C|lia|lia].
  Qed.
  Lemma sim_value lo : sim lo fetch_value fetch_value.
  Proof.
    unfold fetch_value. sc_step. apply sim_bind; [apply upd_key; exact Logic.I|]. cbv zeta.
    apply sim_bind; [|steps].
    assert (O : sim (sc_st c)
      ((if is_block (sc_cxt c) then if negb (sc_ska c) then mlift (Err InvalidValue) else roll_indent (sread (sc_st c)) (slines (sc_st c)) (scol (sc_st c)) true else mret tt) ;; upd (set_ska (is_block (sc_cxt c))))
      ((if is_block (sc_cxt c) then if negb (sc_ska c) then mlift (Err InvalidValue) else roll_indent (sread (sc_st c')) (slines (sc_st c')) (scol (sc_st c)) true else mret tt) ;; upd (set_ska (is_block (sc_cxt c))))).
    { apply sim_bind; [|steps]. destruct (is_block _); [|steps]. destruct (negb _); [steps|].
      apply sim_roll; [apply strel_pos, C|apply strel_line, C|lia|lia]. }
    destruct (sc_key c) as [k|], (sc_key c') as [k'|]; cbn [krel] in D; try contradiction; [|exact O].
    destruct D as [K1 K2]. rewrite K1. destruct (kp_allowed (k_possible k)) eqn:KA; [|exact O].
    specialize (K2 eq_refl). destruct (G KA) as [G1 G2]. rewrite (strel_col _ _ K2).
    apply sim_bind; [apply sim_roll; [apply strel_pos, K2|apply strel_line, K2|exact G1|exact G2]|].
    apply sim_bind; [apply sim_enqueue; [reflexivity|apply strel_pos, K2|exact G1]|steps].
  Qed.
  Lemma sim_flow_start lo m : sim lo (fetch_flow_collection_start m) (fetch_flow_collection_start m).
  Proof.
    unfold fetch_flow_collection_start. apply sim_bind; [|steps].
    apply sim_upd. intros c c' _ (A & B & C & D & E & F & G). split; [|apply le_refl]. pose proof E as (E1 & E2 & E3 & E4).
    repeat split; auto. cbn. congruence.
  Qed.
  Lemma sim_flow_end lo m : sim lo (fetch_flow_collection_end m) (fetch_flow_collection_end m).
  Proof.
    unfold fetch_flow_collection_end. apply sim_bind; [steps|]. sc_step. pose proof E as (E1 & E2 & E3 & E4).
    unfold flow_decrement. rewrite E1. destruct (c_flow (sc_cxt c)) as [|f].
    - intros s s' S _. reflexivity.
    - assert (X : sim (sc_st c) (upd (set_cxt (mkCxt f (c_indent (sc_cxt c)) (c_indents (sc_cxt c)) (c_started (sc_cxt c)))))
        (upd (set_cxt (mkCxt f (c_indent (sc_cxt c')) (c_indents (sc_cxt c')) (c_started (sc_cxt c')))))).
      { apply upd_cxt; [repeat split; auto|exact F]. }
      pose proof (sim_bind _ _ _ (upd (set_ska false) ;; advance_st 1 ;; enqueue_here (Tok (if m then TFlowMappingEnd else TFlowSequenceEnd))) (upd (set_ska false) ;; advance_st 1 ;; enqueue_here (Tok (if m then TFlowMappingEnd else TFlowSequenceEnd))) X) as Y.
      apply Y. steps.
  Qed.
  Lemma sim_flow_entry lo : sim lo fetch_flow_collection_entry fetch_flow_collection_entry.
  Proof. unfold fetch_flow_collection_entry. steps. Qed.
  Lemma refresh_rel c c' : screl c c' -> cxrel (refresh_line (sc_cxt c) (sc_st c)) (refresh_line (sc_cxt c') (sc_st c')) /\
    lined (sc_st c) (refresh_line (sc_cxt c) (sc_st c)).
  Proof.
    intros SC. pose proof SC as (A & B & C & D & E & F & G). pose proof E as (E1 & E2 & E3 & E4). unfold refresh_line. unfold lined in F |- *.
    destruct (c_indents (sc_cxt c)) as [|x l] eqn:X, (c_indents (sc_cxt c')) as [|y l'] eqn:Y; try (exfalso; inversion E4; fail).
    - split; [split; [|split; [|split]]; auto; rewrite X, Y; constructor|rewrite X; constructor].
    - assert (I : ierel x y) by (inversion E4; assumption). assert (EL : Forall2 ierel l l') by (inversion E4; assumption).
      rewrite (line_lt _ _ _ _ SC I). pose proof I as (I1 & I2 & I3 & I4). rewrite I1, (strel_col _ _ C).
      destruct (_ && _).
      + split.
        * split; [|split; [|split]]; cbn [c_flow c_indent c_started c_indents]; auto. constructor; [|exact EL]. unfold ierel. cbn. repeat split; auto. apply strel_line, C.
        * cbn [c_indents]. inversion F. constructor; [cbn; lia|assumption].
      + split; [split; [|split; [|split]]; auto; rewrite X, Y; constructor; auto|rewrite X; exact F].
  Qed.
  Lemma sim_block_entry lo : sim lo fetch_block_collection_entry fetch_block_collection_entry.
  Proof.
    unfold fetch_block_collection_entry. sc_step. cbv zeta. apply sim_bind.
    - destruct (_ && _); [|steps]. apply sim_roll; [apply strel_pos, C|apply strel_line, C|lia|lia].
    - apply sim_bind; [|steps]. apply sim_upd. intros a a' _ S. split; [|apply le_refl]. destruct (refresh_rel _ _ S) as [R1 R2].
      destruct S as (A1 & B1 & C1 & D1 & E1 & F1 & G1). repeat split; auto; apply R1.
  Qed.

  Lemma keep_save f : (forall s s1 x, advance f s = (s1, x) -> sc_st (m_sc s1) = sc_st (m_sc s)).
  Proof.
    intros s s1 x. unfold advance, mbind, get_buf, mlift, put_buf. destruct (skip _ _); intros H;
    match type of H with (?y, _) = _ => assert (s1 = y) as -> by congruence end; reflexivity.
  Qed.
  Lemma keep_remove s s1 x : remove_saved_key s = (s1, x) -> sc_st (m_sc s1) = sc_st (m_sc s).
  Proof.
    unfold remove_saved_key, mbind, get_sc, upd, mret, mlift. destruct (sc_key (m_sc s)) as [k|]; [destruct (kp_required _)|]; intros H;
    match type of H with (?y, _) = _ => assert (s1 = y) as -> by congruence end; reflexivity.
  Qed.
  Lemma keep_key s s1 x r : save_key r s = (s1, x) -> sc_st (m_sc s1) = sc_st (m_sc s).
  Proof.
    unfold save_key. unfold mbind at 1, get_sc. cbv zeta. destruct (sc_ska (m_sc s)).
    - unfold mbind. destruct (remove_saved_key s) as [s2 y] eqn:Q. apply keep_remove in Q. destruct y as [[]| | |]; unfold upd; intros H;
      match type of H with (?y, _) = _ => assert (s1 = y) as -> by congruence end; exact Q.
    - unfold mret. intros H. match type of H with (?y, _) = _ => assert (s1 = y) as -> by congruence end. reflexivity.
  Qed.

  Lemma mbind_assoc {A B C} (m : M A) (k : A -> M B) (j : B -> M C) s : mbind (mbind m k) j s = mbind m (fun a => mbind (k a) j) s.
  Proof. unfold mbind. destruct (m s) as [s1 [a| | |]]; reflexivity. Qed.

  Lemma sim_plain o lo : sim lo (fetch_plain_scalar o) (fetch_plain_scalar o).
  Proof.
    intros s s' S L. pose proof S as (EB & EG & SC & Q). pose proof SC as (A & B & C & D & E & F & G).
    set (k := fun x : maybe_token * nat * stats => let '(tok, amt, st) := x in
      save_key false ;; upd (set_ska false) ;; advance amt ;; upd (set_st st) ;; enqueue_here tok).
    change (simres (sc_st (m_sc s)) (mbind (mlift (scan_plain_scalar o (m_buf s) (sc_st (m_sc s)) (sc_cxt (m_sc s)))) k s)
      (mbind (mlift (scan_plain_scalar o (m_buf s') (sc_st (m_sc s')) (sc_cxt (m_sc s')))) k s')).
    rewrite EB. destruct C as (z & Z1 & Z2).
    assert (X : scan_plain_scalar o (m_buf s) (sc_st (m_sc s')) (sc_cxt (m_sc s')) = scan_plain_scalar o (m_buf s) (sc_st (m_sc s')) (sc_cxt (m_sc s))).
    { unfold scan_plain_scalar. rewrite (cx_indent _ _ E), (cx_block _ _ E). reflexivity. }
    rewrite X, Z2, plain_sh. clear X.
    assert (X : scan_plain_scalar o (m_buf s) (sc_st (m_sc s)) (sc_cxt (m_sc s)) = rmap (shx k1 l1) (scan_plain_scalar o (m_buf s) z (sc_cxt (m_sc s)))).
    { rewrite Z1. apply plain_sh. }
    rewrite X. clear X. unfold mbind, mlift.
    destruct (scan_plain_scalar o (m_buf s) z (sc_cxt (m_sc s))) as [[[m n] z2]|e| |] eqn:SP; cbn [rmap bind]; [|exact (eq_refl e)|exact Logic.I|exact Logic.I].
    apply plain_le in SP. unfold shx. cbn [fst snd]. unfold k.
    set (mm := save_key false ;; upd (set_ska false) ;; advance n).
    assert (RE : forall st tk x, (save_key false ;; upd (set_ska false) ;; advance n ;; upd (set_st st) ;; enqueue_here tk) x =
       (mm ;; upd (set_st st) ;; enqueue_here tk) x).
    { intros st tk x. unfold mm. rewrite mbind_assoc. unfold mbind at 1 5. destruct (save_key false x) as [x1 [[]| | |]]; [|reflexivity..]. rewrite mbind_assoc. reflexivity. }
    rewrite !RE.
    apply (upd_st (sh k1 l1 z2) (sh k2 l2 z2)).
    - exists z2. split; reflexivity.
    - rewrite Z1. unfold le_st, sh in *. cbn [sread slines]. lia.
    - intros x x1 EX. unfold mm in EX. unfold mbind at 1 in EX. destruct (save_key false x) as [x2 [[]| | |]] eqn:E1; try discriminate.
      apply keep_key in E1. unfold mbind, upd in EX. apply keep_save in EX. cbn [m_sc set_ska sc_st] in EX. congruence.
    - unfold mm. steps.
    - intros lo'. apply sim_here. rewrite !shm_token. reflexivity.
    - exact S.
    - reflexivity.
  Qed.
  Lemma sim_block o lo fold : sim lo (fetch_block_scalar o fold) (fetch_block_scalar o fold).
  Proof.
    intros s s' S L. pose proof S as (EB & EG & SC & Q). pose proof SC as (A & B & C & D & E & F & G).
    set (k := fun x : maybe_token * nat * stats => let '(tok, amt, st) := x in
      advance amt ;; upd (set_st st) ;; enqueue_here tok).
    change (simres (sc_st (m_sc s))
      ((remove_saved_key ;; upd (set_ska true) ;; mbind (mlift (scan_block_scalar o (m_buf s) (sc_st (m_sc s)) (sc_cxt (m_sc s)) fold)) k) s)
      ((remove_saved_key ;; upd (set_ska true) ;; mbind (mlift (scan_block_scalar o (m_buf s') (sc_st (m_sc s')) (sc_cxt (m_sc s')) fold)) k) s')).
    rewrite EB. destruct C as (z & Z1 & Z2).
    assert (X : scan_block_scalar o (m_buf s) (sc_st (m_sc s')) (sc_cxt (m_sc s')) fold = scan_block_scalar o (m_buf s) (sc_st (m_sc s')) (sc_cxt (m_sc s)) fold).
    { unfold scan_block_scalar. rewrite (cx_indent _ _ E). reflexivity. }
    rewrite X, Z2, block_sh. clear X.
    assert (X : scan_block_scalar o (m_buf s) (sc_st (m_sc s)) (sc_cxt (m_sc s)) fold = rmap (shx k1 l1) (scan_block_scalar o (m_buf s) z (sc_cxt (m_sc s)) fold)).
    { rewrite Z1. apply block_sh. }
    rewrite X. clear X.
    destruct (scan_block_scalar o (m_buf s) z (sc_cxt (m_sc s)) fold) as [[[m n] z2]|e| |] eqn:SP; cbn [rmap bind].
    2, 3, 4: apply (sim_bind (sc_st (m_sc s))); [apply sim_remove|apply sim_bind; [apply upd_ska|]|exact S|apply le_refl].
    2: intros a a' _ _; exact (eq_refl e). 2, 3: intros a a' _ _; exact Logic.I.
    apply block_le in SP. unfold shx. cbn [fst snd].
    set (mm := remove_saved_key ;; upd (set_ska true) ;; advance n).
    assert (RE : forall st tk x, (remove_saved_key ;; upd (set_ska true) ;; mbind (mlift (Ok (tk, n, st))) k) x =
       (mm ;; upd (set_st st) ;; enqueue_here tk) x).
    { intros st tk x. unfold mm. rewrite mbind_assoc. unfold mbind at 1 4. destruct (remove_saved_key x) as [x1 [[]| | |]]; [|reflexivity..]. rewrite mbind_assoc. reflexivity. }
    rewrite !RE.
    apply (upd_st (sh k1 l1 z2) (sh k2 l2 z2)).
    - exists z2. split; reflexivity.
    - rewrite Z1. unfold le_st, sh in *. cbn [sread slines]. lia.
    - intros x x1 EX. unfold mm in EX. unfold mbind at 1 in EX. destruct (remove_saved_key x) as [x2 [[]| | |]] eqn:E1; try discriminate.
      apply keep_remove in E1. unfold mbind, upd in EX. apply keep_save in EX. cbn [m_sc set_ska sc_st] in EX. congruence.
    - unfold mm. steps.
    - intros lo'. apply sim_here. rewrite !shm_token. reflexivity.
    - exact S.
    - reflexivity.
  Qed.

  Lemma sim_dispatch o lo : sim lo (dispatch o) (dispatch o).
  Proof.
    unfold dispatch. apply sim_buf. intros b. sc_step. cbv zeta.
    assert (PL : is_plain_scalar b (sc_cxt c') = is_plain_scalar b (sc_cxt c)) by (unfold is_plain_scalar; rewrite (cx_block _ _ E); reflexivity).
    rewrite PL.
    repeat match goal with |- sim _ (if ?x then _ else _) _ => destruct x; [first [apply sim_directive|apply sim_marker|apply sim_flow_start|apply sim_flow_end|apply sim_flow_entry|apply sim_block_entry|apply sim_explicit|apply sim_value|apply sim_anchor|apply sim_tag|apply sim_block|apply sim_flow_scalar|apply sim_plain]|] end.
    steps.
  Qed.

  Definition after_expire (o : flags) : M unit :=
    do sc <- get_sc;
    unroll_indent (Some (scol (sc_st sc))) ;;
    pop_zero_indent_sequence ;;
    do b <- get_buf; do sc <- get_sc;
    if is_empty b || match sc_state sc with SDone => true | _ => false end
    then fetch_stream_end
    else mlift (cache o b 4) ;; dispatch o.
  Lemma sim_after o lo : sim lo (after_expire o) (after_expire o).
  Proof.
    unfold after_expire. sc_step. apply sim_bind; [apply sim_unroll|]. apply sim_bind; [apply sim_zero|].
    apply sim_buf. intros b. apply sim_sc. intros c2 c2' SC2 _. pose proof (proj1 SC2) as A2. rewrite A2. destruct (_ || _); [apply sim_end|].
    apply sim_lift. intros []. apply sim_dispatch.
  Qed.
  Lemma sim_next o lo : sim lo (scan_next_token o) (scan_next_token o).
  Proof.
    unfold scan_next_token. sc_step.
    assert (K : sim (sc_st c) (sc_eat_whitespace o ;; expire_stale_saved_key ;; after_expire o) (sc_eat_whitespace o ;; expire_stale_saved_key ;; after_expire o)).
    { apply sim_bind; [apply sim_eat|]. apply sim_bind; [apply sim_expire|apply sim_after]. }
    destruct (sc_state c); [apply sim_start|exact K|exact K].
  Qed.

  (** ** The loop *)
  Definition lrel2 (base base' : str) (x x' : scanner * tokens * sres unit) : Prop :=
    match x, x' with
    | (sc, q, Ok _), (sc', q', Ok _) => screl sc sc' /\ qrel (sc_st sc) q q' /\
        exists b, inT b /\ skipn (sc_offset sc) base = b /\ skipn (sc_offset sc') base' = b /\
          sc_offset sc <= List.length base /\ sc_offset sc' <= List.length base'
    | (_, _, Err e), (_, _, Err e') => e = e'
    | (_, _, Panic), (_, _, Panic) => True
    | (_, _, Fuel), (_, _, Fuel) => True
    | _, _ => False
    end.
  Variables u u' : str.
  Notation base := (u ++ T).
  Notation base' := (u' ++ T).
  Lemma inT_app w b : inT b -> skipn (List.length (w ++ T) - List.length b) (w ++ T) = b.
  Proof.
    intros (_ & n & L & ->). rewrite skipn_length, app_length, skipn_app.
    replace (List.length w + List.length T - (List.length T - n)) with (List.length w + n) by lia.
    rewrite skipn_all2 by lia. cbn [app]. f_equal. lia.
  Qed.
  Lemma from_rel (w : str) off b : inT b -> skipn off (w ++ T) = b -> off <= List.length (w ++ T) -> get_from (w ++ T) off = Some b.
  Proof. intros (N & _) E L. unfold get_from. rewrite nc_boundary; [rewrite E; reflexivity|exact L|]. rewrite E. exact N. Qed.

  Lemma screl_off n n' c c' : screl c c' -> screl (set_offset n c) (set_offset n' c').
  Proof. intros H. exact H. Qed.
  Lemma res_rel s s' st sc sc' : simres st s s' ->
    (match snd s with Ok _ | Err Extend => set_offset (List.length base - List.length (m_buf (fst s))) (m_sc (fst s)) | _ => m_sc (fst s) end) = sc ->
    (match snd s' with Ok _ | Err Extend => set_offset (List.length base' - List.length (m_buf (fst s'))) (m_sc (fst s')) | _ => m_sc (fst s') end) = sc' ->
    lrel2 base base' (sc, m_q (fst s), snd s) (sc', m_q (fst s'), snd s').
  Proof.
    intros H <- <-. destruct s as [s r], s' as [s' r']. cbn [fst snd] in *. unfold simres in H.
    destruct r as [[]| | |], r' as [[]| | |]; try contradiction; try exact H.
    destruct H as [(B & G & C & Q) _]. cbn [lrel2]. split; [apply screl_off, C|]. split; [exact Q|]. exists (m_buf s).
    split; [exact G|]. cbn [set_offset sc_offset]. rewrite B. split; [apply inT_app, G|]. split; [apply inT_app, G|]. lia.
  Qed.
  Lemma round_rel o sc q sc' q' : lrel2 base base' (sc, q, Ok tt) (sc', q', Ok tt) ->
    lrel2 base base' (scan_round o base sc q) (scan_round o base' sc' q').
  Proof.
    intros (C & Q & b & G & B & B' & L & L'). unfold scan_round. rewrite (from_rel u _ b G B L), (from_rel u' _ b G B' L').
    assert (S : msim (mkMs b sc q) (mkMs b sc' q')) by (split; [reflexivity|]; split; [exact G|]; split; [exact C|exact Q]).
    pose proof (sim_next o (sc_st sc) _ _ S (le_refl _)) as X. cbn [m_sc] in X.
    pose proof (fun sc1 sc2 => res_rel _ _ _ sc1 sc2 X) as Y.
    destruct (scan_next_token o (mkMs b sc q)) as [s r], (scan_next_token o (mkMs b sc' q')) as [s' r']. cbn [fst snd] in Y.
    apply Y; reflexivity.
  Qed.
  Lemma loop_rel o start fuel : forall sc q sc' q', lrel2 base base' (sc, q, Ok tt) (sc', q', Ok tt) ->
    lrel2 base base' (scan_loop fuel o base start sc q) (scan_loop fuel o base' start sc' q').
  Proof.
    induction fuel as [|fuel IH]; intros sc q sc' q' R.
    all: assert (W : want_more start sc' q' = want_more start sc q).
    1, 3: destruct R as ((A & _ & _ & D & _) & Q & _); unfold want_more; rewrite (qrel_len _ _ _ Q), A;
      destruct (sc_key sc) as [k|], (sc_key sc') as [k'|]; cbn [krel] in D; try contradiction; [|reflexivity]; destruct D as [K _];
      unfold key_possible_now; rewrite K; reflexivity.
    all: cbn [scan_loop]; rewrite W; destruct (want_more start sc q); [|exact R].
    - exact Logic.I.
    - pose proof (round_rel o _ _ _ _ R) as X.
      destruct (scan_round o base sc q) as [[sc1 q1] [[]| | |]], (scan_round o base' sc' q') as [[sc1' q1'] [[]| | |]]; try contradiction; try exact X.
      apply IH. exact X.
  Qed.
End Sim.
