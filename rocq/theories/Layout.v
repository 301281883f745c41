(** The indentation of the scanner follows the columns of the text. *)
From Verif Require Export ScanFacts SpecLayout WhiteFacts.
From Coq Require Import Lia ZifyBool ZifyN ZifyNat.
Open Scope nat_scope.

(** ** Positions *)
Lemma position_text t n k l c : position t n l c -> n + k <= List.length t ->
  (forall j, j < k -> break_len (skipn (n + j) t) = 0) -> position t (n + k) l (c + k).
Proof.
  intros P. induction k as [|k IH]; intros L B; [rewrite !Nat.add_0_r; exact P|].
  rewrite <- !plus_n_Sm. apply pos_byte; [apply IH; [lia|auto]|lia|apply B; lia].
Qed.
Lemma reads_position t s st s' st' : reads s st s' st' ->
  s = skipn (sread st) t -> sread st <= List.length t -> position t (sread st) (slines st) (scol st) ->
  position t (sread st') (slines st') (scol st').
Proof.
  induction 1 as [s st|s n st s' st' L B BD R IH|s st s' st' B BD R IH]; intros E LT P.
  - exact P.
  - subst s. rewrite skipn_length in L. apply IH; cbn.
    + apply skipn_skipn.
    + lia.
    + apply position_text; [exact P|lia|]. intros j J. rewrite <- skipn_skipn. apply no_break_len, B, J.
  - subst s. rewrite <- break_len_amt in IH. apply IH; cbn.
    + apply skipn_skipn.
    + apply boundary_le in BD. rewrite skipn_length, <- break_len_amt in BD. lia.
    + apply pos_break with (c := scol st); [exact P|]. unfold is_break in B. rewrite break_len_amt. lia.
Qed.
Lemma exact_suffix t b st : reads t stats0 b st -> b = skipn (sread st) t.
Proof. intros R. apply reads_len in R as (L & E & D). cbn in E.
  replace (sread st) with (List.length t - List.length b) by lia. exact D. Qed.
Lemma reads_column t b st : reads t stats0 b st -> in_column t (sread st) (scol st).
Proof. intros R. exists (slines st). apply (reads_position t t stats0 b st R); [reflexivity|cbn; lia|constructor]. Qed.

Lemma reads_line t b st k bk : reads t stats0 bk k -> reads bk k b st -> slines st <= slines k ->
  on_one_line t (sread k) (sread st).
Proof.
  intros R R' L. pose proof (reads_lines _ _ _ _ R'). assert (E : slines st = slines k) by lia.
  exists (slines k), (scol k), (scol st). split.
  - apply (reads_position t t stats0 bk k R); [reflexivity|cbn; lia|constructor].
  - rewrite <- E. apply (reads_position t t stats0 b st (reads_trans _ _ _ _ _ _ R R')); [reflexivity|cbn; lia|constructor].
Qed.

(** ** White space *)
Lemma skips_front c b b1 : skips c b b1 -> b1 = [] \/ is_blank b1 = false /\ is_break b1 = false /\ at_is b1 0 35 = false.
Proof. induction 1; auto. Qed.
Lemma skips_still b b2 : skips false b b -> skips false b b2 -> b2 = b.
Proof.
  intros H H2. apply skips_front in H. inversion H2; subst; try reflexivity; destruct H as [->|(A & B & C)]; try congruence; discriminate.
Qed.
(** The text from [b] on carries nothing but white space after [m]. *)
Definition leads (t : str) (m : nat) (b : str) : Prop := forall b2, skips false b b2 -> skips false (skipn m t) b2.
Lemma leads_next t m b st : reads t stats0 b st -> leads t m b -> skips false b b -> m <= sread st -> next_place t m (sread st).
Proof.
  intros R L S M. pose proof (exact_suffix _ _ _ R) as E. split; [rewrite <- E; apply L, S|].
  apply reads_len in R as (R1 & R2 & _). cbn in R2. lia.
Qed.
Lemma leads_here t b st : reads t stats0 b st -> leads t (sread st) b.
Proof. intros R b2 S. rewrite <- (exact_suffix _ _ _ R). exact S. Qed.
Lemma leads_skip t m b b1 : leads t m b -> skips false b b1 -> leads t m b1.
Proof. intros L S b2 S2. rewrite (skips_still _ _ (skips_rest _ _ _ S) S2). apply L, S. Qed.

(** ** The link between the context of the scanner and what is open *)
(** Behind a dash in column [c] of a line. *)
Definition past (ln c : nat) (st : stats) : Prop := ln < slines st \/ ln = slines st /\ c < scol st.
Lemma reads_past ln c s st s' st' : reads s st s' st' -> past ln c st -> past ln c st'.
Proof.
  induction 1 as [s st|s n st s' st' L B BD R IH|s st s' st' B BD R IH]; intros P; [exact P|apply IH|apply IH];
    unfold past in *; cbn; lia.
Qed.
Fixpoint unbroken (st : stats) (l : list indent_entry) (i : nat) (bs : list (nat * bool)) : Prop :=
  match l, bs with
  | [], [] => i = 0
  | e :: l, (c, m) :: bs =>
      i = c /\ ie_map e = m /\ ie_indent e <= i /\
      (if ie_zero e then ie_map e = false /\ (exists bs', bs = (c, true) :: bs') /\ past (ie_line e) c st
       else bs = [] \/ ie_indent e < i) /\ unbroken st l (ie_indent e) bs
  | _, _ => False
  end.
Lemma unbroken_reads s st s' st' l : reads s st s' st' -> forall i bs, unbroken st l i bs -> unbroken st' l i bs.
Proof.
  intros R. induction l as [|e l IH]; intros i [|[c m] bs]; cbn; auto. intros (A & B & C & D & E).
  repeat (split; [assumption|]). split; [|apply IH, E]. destruct (ie_zero e); [|exact D].
  destruct D as (D1 & D2 & D3). repeat split; auto. eapply reads_past; eauto.
Qed.
Lemma unbroken_nil st i bs : unbroken st [] i bs -> bs = [] /\ i = 0.
Proof. destruct bs; cbn; [auto|tauto]. Qed.
Lemma unbroken_innermost st l i bs : unbroken st l i bs -> i = innermost bs.
Proof. destruct l, bs as [|[c m] bs]; cbn; tauto. Qed.

(** What stands at [b] in column [col] may be part of the innermost collection. *)
Definition inside (b : str) (col : nat) (l : list indent_entry) (i : nat) : Prop :=
  i <= col /\ forall e r, l = e :: r -> ie_zero e = true -> at_is b 0 45 = true \/ i < col.
Lemma inside_tail st b col e l i bs : unbroken st (e :: l) i bs -> inside b col (e :: l) i -> inside b col l (ie_indent e).
Proof.
  destruct bs as [|[c m] bs]; [intros []|]. intros (-> & B & C & D & E) [I1 I2]. split; [lia|].
  intros e2 r -> Z. destruct bs as [|[c2 m2] bs]; [destruct E|]. destruct E as (E1 & E2 & E3 & E4 & E5).
  destruct (ie_zero e).
  - destruct D as (D1 & (bs' & D2) & D3). injection D2 as -> -> ->. rewrite Z in E4. destruct E4 as (E4 & _). congruence.
  - destruct D as [D|D]; [discriminate|]. right. lia.
Qed.
Lemma inside_stays st t n col l i bs : unbroken st l i bs -> inside (skipn n t) col l i -> stays t bs n col.
Proof.
  intros U [I1 I2]. rewrite (unbroken_innermost _ _ _ _ U) in *. split; [exact I1|].
  intros (c & l' & ->) E. cbn in *. destruct l as [|e l]; [destruct U|]. destruct U as (U1 & U2 & U3 & U4 & U5).
  destruct (ie_zero e) eqn:Z.
  - destruct (I2 e l eq_refl Z) as [H|H]; [|lia]. destruct (at_is_cons _ _ H) as (r & ER). exists r. exact ER.
  - destruct U4 as [U4|U4]; [discriminate|]. destruct l as [|e2 l]; [destruct U5|]. destruct U5 as (U5 & _). lia.
Qed.

Definition known (o : flags) (t : str) (s : layout) (n c : nat) (e : entry) : Prop :=
  exists st cx k st', content o (skipn n t) st cx (e_wrap e) k st' /\
    sread st = n /\ scol st = c /\ e_read e = sread st' /\
    reads t stats0 (skipn n t) st /\ reads t stats0 (skipn (n + k) t) st' /\
    c_flow cx = flows s /\ c_started cx = begun_before s /\ c_indent cx = innermost (blocks s).

Definition linv (o : flags) (t : str) (h : list entry) (b : str) (sc : scanner) : Prop :=
  reads t stats0 b (sc_st sc) /\
  exists l ks m, laid_out (known o t) t nothing_open h (Layout (c_started (sc_cxt sc)) l (c_flow (sc_cxt sc)) ks m) /\
    (leads t m b /\ m <= sread (sc_st sc)) /\ unbroken (sc_st sc) (c_indents (sc_cxt sc)) (c_indent (sc_cxt sc)) l /\
    (c_started (sc_cxt sc) = false -> l = []) /\
    match sc_key sc with
    | Some k => kp_allowed (k_possible k) = true ->
        exists bk, reads t stats0 bk (k_stats k) /\ reads bk (k_stats k) b (sc_st sc) /\ In (sread (k_stats k)) ks /\
          (is_block (sc_cxt sc) = true -> inside bk (scol (k_stats k)) (c_indents (sc_cxt sc)) (c_indent (sc_cxt sc)))
    | None => True
    end.

Lemma linv_start o t : linv o t [] t scanner0.
Proof.
  split; [constructor|]. exists [], [], 0. split; [constructor|]. cbn. split; [split; [intros b2 S; exact S|lia]|]. auto.
Qed.

Lemma laid_snoc P t s h s1 es s2 : laid_out P t s h s1 -> found P t s1 es s2 -> laid_out P t s (h ++ es) s2.
Proof.
  induction 1 as [s|s es' s1 fs s2' F L IH]; intros G.
  - rewrite <- (app_nil_r es). cbn [app]. eapply lo_next; [exact G|constructor].
  - rewrite <- app_assoc. eapply lo_next; [exact F|]. apply IH, G.
Qed.
Lemma laid_app P t s h s1 : laid_out P t s h s1 -> forall es s2, laid_out P t s1 es s2 -> laid_out P t s (h ++ es) s2.
Proof.
  induction 1 as [s|s es' s1 fs s2' F L IH]; intros es s2 G; [exact G|].
  rewrite <- app_assoc. eapply lo_next; [exact F|]. apply IH, G.
Qed.

Lemma laid_one P t s es s1 : found P t s es s1 -> laid_out P t s es s1.
Proof. intros F. rewrite <- (app_nil_r es). eapply lo_next; [exact F|constructor]. Qed.

(** Closing by the column or at the end of the document. *)
Lemma pop_laid o t u ks b n st (col : option nat) : (forall i, indent_gt i col = true ->
    (exists c', in_column t n c' /\ c' < i) \/ document_over t n) ->
  skips false b b -> leads t n b -> next_place t n n ->
  forall l i bs m i' l' k, unbroken st l i bs -> pop_indents l i col = (i', l', k) -> leads t m b -> next_place t m n ->
  exists bs' m', laid_out (known o t) t (Layout u bs 0 ks m) (ends k n) (Layout u bs' 0 ks m') /\ (leads t m' b /\ m' <= n) /\
    unbroken st l' i' bs' /\ (bs = [] -> bs' = []) /\
    forall b' c', inside b' c' l i -> inside b' c' l' i'.
Proof.
  intros CL SB LN NN. induction l as [|e l IH]; intros i bs m i' l' k CH; cbn [pop_indents].
  - apply unbroken_nil in CH as [-> ->]. destruct (indent_gt 0 col); intros [= <- <- <-] LM M;
      (exists [], m; split; [constructor|]; split; [split; [exact LM|apply M]|]; cbn; auto).
  - destruct bs as [|[c mp] bs]; [destruct CH|]. pose proof CH as U. destruct CH as (-> & EM & LE & Z & CH).
    destruct (indent_gt c col) eqn:G.
    + destruct (pop_indents l (ie_indent e) col) as [[i2 l2] k2] eqn:E. intros [= <- <- <-] LM M.
      destruct (IH _ _ n _ _ _ CH E LN NN) as (bs' & m' & L & M' & CH' & NI & IN).
      exists bs', m'. split; [|split; [exact M'|split; [exact CH'|split; [discriminate|]]]].
      * change (ends (S k2) n) with ([mkEntry (Tok TBlockEnd) n] ++ ends k2 n).
        eapply lo_next; [|exact L]. apply fd_close; [exact M|]. unfold closes_at. destruct (CL _ G); auto.
      * intros b' c' H. apply IN. eapply inside_tail; eauto.
    + intros [= <- <- <-] LM M. exists ((c, mp) :: bs), m. split; [constructor|]. split; [split; [exact LM|apply M]|]. split; [exact U|]. auto.
Qed.

Lemma decrement_flow c col c' n : indent_decrement c col = (c', n) -> c_flow c' = c_flow c /\ c_started c' = c_started c.
Proof.
  unfold indent_decrement. destruct (is_block c); [|intros [= <- _]; auto].
  destruct (pop_indents _ _ _) as [[i l] m]. intros [= <- _]. auto.
Qed.
Lemma block_flow c : is_block c = true <-> c_flow c = 0.
Proof. unfold is_block, is_flow. destruct (c_flow c); cbn; split; congruence. Qed.

Lemma over_column t b st : reads t stats0 b st ->
  b = [] \/ scol st = 0 /\ (at_is b 0 37 = true \/
    exists start : bool, starts_with b (bytes (if start then "---" else "...")) = true /\ is_wsZ_at b 3 = true) ->
  document_over t (sread st).
Proof.
  intros R H. pose proof (exact_suffix _ _ _ R) as E. destruct H as [->|[C H]].
  - left. symmetry. exact E.
  - right. split; [rewrite <- C; apply (reads_column _ _ _ R)|]. rewrite <- E. destruct H as [H|(start & S & W)].
    + left. destruct (at_is_cons _ _ H) as (r & EB). exists r. rewrite <- E. exact EB.
    + right. apply document_marker_iff. unfold is_doc_indicator. cbn [Nat.eqb andb].
      destruct start; rewrite S, W; cbn; rewrite ?orb_true_r; reflexivity.
Qed.

(** A step that closes block collections. *)
Lemma linv_ends o t h b sc n c : cause b sc n c -> skips false b b -> linv o t h b sc ->
  linv o t (h ++ ends n (sread (sc_st sc))) b (set_cxt c sc) /\ c_flow c = c_flow (sc_cxt sc) /\
  forall b' c', inside b' c' (c_indents (sc_cxt sc)) (c_indent (sc_cxt sc)) -> inside b' c' (c_indents c) (c_indent c).
Proof.
  intros CA SB (R & l & ks & m & L & (LM & M) & CH & ST & K). pose proof (leads_next _ _ _ _ R LM SB M) as NX.
  pose proof (leads_here _ _ _ R) as LN. pose proof (leads_next _ _ _ _ R LN SB (le_n _)) as NN.
  assert (GEN : forall l' m', laid_out (known o t) t (Layout (c_started (sc_cxt sc)) l (c_flow (sc_cxt sc)) ks m)
       (ends n (sread (sc_st sc))) (Layout (c_started c) l' (c_flow c) ks m') -> leads t m' b /\ m' <= sread (sc_st sc) ->
     unbroken (sc_st sc) (c_indents c) (c_indent c) l' -> (c_started c = false -> l' = []) ->
     c_flow c = c_flow (sc_cxt sc) ->
     (forall b' c', inside b' c' (c_indents (sc_cxt sc)) (c_indent (sc_cxt sc)) -> inside b' c' (c_indents c) (c_indent c)) ->
     linv o t (h ++ ends n (sread (sc_st sc))) b (set_cxt c sc) /\ c_flow c = c_flow (sc_cxt sc) /\
     forall b' c', inside b' c' (c_indents (sc_cxt sc)) (c_indent (sc_cxt sc)) -> inside b' c' (c_indents c) (c_indent c)).
  { intros l' m' L' M' CH' ST' FL IN. split; [|auto]. split; [exact R|].
    exists l', ks, m'. split; [eapply laid_app; eauto|]. split; [exact M'|]. split; [exact CH'|]. split; [exact ST'|].
    cbn [set_cxt sc_key sc_st sc_cxt]. destruct (sc_key sc) as [k|]; [|exact Logic.I].
    intros A. destruct (K A) as (bk & K1 & K2 & K3 & K4). exists bk. split; [exact K1|]. split; [exact K2|]. split; [exact K3|].
    intros B. apply block_flow in B. rewrite FL in B. apply block_flow in B. apply IN, K4, B. }
  assert (DEC : forall col, indent_decrement (sc_cxt sc) col = (c, n) ->
     (forall i, indent_gt i col = true -> (exists c', in_column t (sread (sc_st sc)) c' /\ c' < i) \/ document_over t (sread (sc_st sc))) ->
     linv o t (h ++ ends n (sread (sc_st sc))) b (set_cxt c sc) /\ c_flow c = c_flow (sc_cxt sc) /\
     forall b' c', inside b' c' (c_indents (sc_cxt sc)) (c_indent (sc_cxt sc)) -> inside b' c' (c_indents c) (c_indent c)).
  { intros col D CL. unfold indent_decrement in D. destruct (is_block (sc_cxt sc)) eqn:B.
    - destruct (pop_indents _ _ _) as [[i' l'] k] eqn:P. injection D as <- <-. apply block_flow in B.
      destruct (pop_laid o t (c_started (sc_cxt sc)) ks b _ (sc_st sc) col CL SB LN NN _ _ _ _ _ _ _ CH P LM NX) as (bs' & m' & L' & M' & CH' & NI & IN).
      apply (GEN bs' m'); cbn; auto. rewrite B. exact L'.
    - injection D as <- <-. apply (GEN l m); auto. constructor. }
  destruct CA as [D|D H|e il EI Z MP ND P].
  - apply (DEC _ D). intros i G. left. exists (scol (sc_st sc)). split; [apply (reads_column _ _ _ R)|].
    cbn in G. apply Nat.ltb_lt, G.
  - apply (DEC _ D). intros i _. right. eapply over_column; eauto.
  - unfold pop_indent in P. rewrite EI in P. injection P as <- <-. rewrite EI in CH. pose proof CH as U.
    destruct l as [|[cc mm] l]; [destruct CH|]. destruct CH as (C1 & C2 & C3 & C4 & C5). rewrite Z in C4.
    destruct C4 as (C4 & (bs' & ->) & C6).
    apply (GEN ((cc, true) :: bs') (sread (sc_st sc))); cbn [c_started c_flow c_indents c_indent]; auto.
    + apply laid_one. apply fd_close; [exact NX|]. right. right.
      split; [exists cc, bs'; congruence|]. intros (r & S).
      rewrite <- (exact_suffix _ _ _ R) in S. rewrite S in ND. discriminate.
    + intros S. discriminate (ST S).
    + rewrite EI. intros b' c'. eapply inside_tail; eauto.
Qed.

Lemma linv_ws o t h b sc b1 st1 ska : skips false b b1 -> reads b (sc_st sc) b1 st1 -> linv o t h b sc ->
  linv o t h b1 (mkSc (sc_offset sc) (sc_state sc) ska st1 (sc_key sc) (sc_cxt sc)).
Proof.
  intros S R (R0 & l & ks & m & L & (LM & M) & CH & ST & K). pose proof (reads_len _ _ _ _ R) as (L1 & L2 & _).
  split; [eapply reads_trans; eauto|]. exists l, ks, m. cbn. split; [exact L|].
  split; [split; [eapply leads_skip; eauto|lia]|]. split; [eapply unbroken_reads; eauto|]. split; [exact ST|].
  destruct (sc_key sc) as [k|]; [|exact Logic.I]. intros A. destruct (K A) as (bk & K1 & K2 & K3 & K4).
  exists bk. split; [exact K1|]. split; [eapply reads_trans; eauto|]. auto.
Qed.
Lemma linv_key o t h b sc k : key_possible_now k = false -> linv o t h b sc -> linv o t h b (set_key k sc).
Proof.
  intros N (R & l & ks & m & L & M & CH & ST & K). split; [exact R|]. exists l, ks, m. cbn.
  repeat (split; [assumption|]). destruct k; [|exact Logic.I]. cbn in N. congruence.
Qed.
Lemma linv_same o t h b sc ska : linv o t h b sc -> linv o t h b (set_ska ska sc).
Proof. intros H. exact H. Qed.

Definition lvl (b : str) (sc : scanner) : Prop :=
  c_flow (sc_cxt sc) = 0 -> inside b (scol (sc_st sc)) (c_indents (sc_cxt sc)) (c_indent (sc_cxt sc)).
Lemma level_column o t h b sc : linv o t h b sc -> level sc -> c_flow (sc_cxt sc) = 0 -> c_indent (sc_cxt sc) <= scol (sc_st sc).
Proof.
  intros (_ & l & ks & m & _ & _ & CH & _) L F. apply block_flow in F. destruct (L F) as [E|E]; [|exact E].
  rewrite E in CH. apply unbroken_nil in CH as [_ ->]. lia.
Qed.
Lemma level_lvl o t h b sc : linv o t h b sc -> dashed b sc ->
  (c_flow (sc_cxt sc) = 0 -> c_indent (sc_cxt sc) <= scol (sc_st sc)) -> lvl b sc.
Proof.
  intros (_ & l & ks & m & _ & _ & CH & _) D C F. specialize (C F). split; [exact C|]. intros e r E Z.
  destruct (at_is b 0 45) eqn:A; [auto|]. right. rewrite E in CH. destruct l as [|[c mp] l]; [destruct CH|].
  destruct CH as (-> & EM & LE & ZZ & _). rewrite Z in ZZ. destruct ZZ as (Z1 & _ & P). specialize (D e r E Z Z1 A).
  unfold past in P. lia.
Qed.
Lemma undashed_lvl o t h b sc h0 b0 sc0 : linv o t h0 b0 sc0 -> linv o t h b sc -> undashed sc0 sc ->
  (c_flow (sc_cxt sc) = 0 -> c_indent (sc_cxt sc) <= scol (sc_st sc)) -> lvl b sc.
Proof.
  intros (_ & l0 & ks0 & m0 & _ & _ & CH0 & _) (_ & l & ks & m & _ & _ & CH & _) (e & E & Z & M) C F. split; [auto|].
  intros e2 r E2 Z2. exfalso. rewrite E, E2 in CH0. rewrite E2 in CH. destruct l0 as [|[c mp] l0]; [destruct CH0|].
  destruct CH0 as (C1 & C2 & C3 & C4 & C5). rewrite Z in C4. destruct C4 as (_ & (bs' & ->) & _).
  destruct C5 as (_ & C5 & _ & C6 & _). rewrite Z2 in C6. destruct C6 as (C6 & _). congruence.
Qed.
Lemma reads_stay s st s' st' : reads s st s' st' -> List.length s' = List.length s -> st' = st.
Proof.
  induction 1 as [s st|s n st s' st' L B BD R IH|s st s' st' B BD R IH]; intros E.
  - reflexivity.
  - pose proof (reads_len _ _ _ _ R) as (LL & _). rewrite skipn_length in LL. assert (n = 0) as -> by lia.
    cbn [skipn] in *. rewrite (IH E). destruct st. cbn. f_equal; lia.
  - pose proof (reads_len _ _ _ _ R) as (LL & _). rewrite skipn_length in LL. unfold is_break in B.
    apply boundary_le in BD. lia.
Qed.

(** Bookkeeping that reads nothing. *)
Lemma quiet_still o t b sc es b' sc' : quiet b sc es b' sc' -> List.length b' = List.length b ->
  forall h, linv o t h b sc -> sc_st sc' = sc_st sc /\ b' = b /\ c_flow (sc_cxt sc') = c_flow (sc_cxt sc) /\
    forall b' c', inside b' c' (c_indents (sc_cxt sc)) (c_indent (sc_cxt sc)) -> inside b' c' (c_indents (sc_cxt sc')) (c_indent (sc_cxt sc')).
Proof.
  induction 1 as [b sc|b sc b1 st1 ska es b' sc' SK R Q IH|b sc k es b' sc' K Q IH|b sc v es b' sc' Q IH
    |b sc n c es b' sc' C CA SB Q IH]; intros E h I.
  - auto.
  - pose proof (reads_len _ _ _ _ R) as (L1 & _ & L3). pose proof (reads_len _ _ _ _ (quiet_reads _ _ _ _ _ Q)) as (L2 & _).
    assert (EB : List.length b1 = List.length b) by lia. pose proof (reads_stay _ _ _ _ R EB) as ->.
    rewrite EB, Nat.sub_diag in L3. cbn in L3. subst b1.
    apply (IH ltac:(lia) h). apply (linv_ws o t h b sc b _ ska SK R I).
  - apply (IH E h). apply linv_key; assumption.
  - apply (IH E h). exact I.
  - destruct (linv_ends _ _ _ _ _ _ _ CA SB I) as (I' & FL & IN). destruct (IH E _ I') as (A1 & A2 & A3 & A4).
    cbn in *. split; [exact A1|]. split; [exact A2|]. split; [congruence|]. intros b2 c2 H. apply A4, IN, H.
Qed.
Lemma quiet_lvl o t b sc es sc' h : quiet b sc es b sc' -> linv o t h b sc -> lvl b sc -> lvl b sc'.
Proof.
  intros Q I L F. destruct (quiet_still o t _ _ _ _ _ Q eq_refl h I) as (A1 & _ & A3 & A4). rewrite A1. apply A4, L. congruence.
Qed.
Lemma quiet_column o t b sc es sc' h : quiet b sc es b sc' -> linv o t h b sc ->
  (c_flow (sc_cxt sc) = 0 -> c_indent (sc_cxt sc) <= scol (sc_st sc)) ->
  c_flow (sc_cxt sc') = 0 -> c_indent (sc_cxt sc') <= scol (sc_st sc').
Proof.
  intros Q I L F. destruct (quiet_still o t _ _ _ _ _ Q eq_refl h I) as (A1 & _ & A3 & A4). rewrite A1.
  (* a text that begins with a dash *)
  apply (A4 [45%N] (scol (sc_st sc))). split; [apply L; congruence|]. intros. left. reflexivity.
Qed.

(** ** Tokens *)
Lemma roll_enters t bk c st map c' pre l st0 : roll c st map = (c', pre) -> is_block c = true ->
  reads t stats0 bk st -> unbroken st0 (c_indents c) (c_indent c) l -> (c_started c = false -> l = []) ->
  inside bk (scol st) (c_indents c) (c_indent c) ->
  exists l', enters t (c_started c) l map (sread st) pre (c_started c') l' /\
    (forall st1, (map = false -> past (slines st) (scol st) st1) -> unbroken st1 (c_indents c) (c_indent c) l ->
      unbroken st1 (c_indents c') (c_indent c') l') /\
    (c_started c' = false -> l' = []) /\ c_flow c' = 0 /\
    (map = false -> match c_indents c' with e :: _ => ie_zero e = true -> ie_indent e = c_indent c' | [] => True end).
Proof.
  unfold roll. intros H B R CH ST IS. rewrite B in H. pose proof (reads_column _ _ _ R) as COL.
  rewrite (exact_suffix _ _ _ R) in IS. pose proof (inside_stays _ _ _ _ _ _ _ CH IS) as SY. destruct IS as [LE _].
  pose proof (unbroken_innermost _ _ _ _ CH) as IN. apply block_flow in B.
  assert (ZE : match c_indents c with e :: _ => ie_zero e = true -> ie_indent e = c_indent c | [] => True end).
  { destruct (c_indents c) as [|e es]; [exact Logic.I|]. intros Z. destruct l as [|[c0 m0] l]; [destruct CH|].
    destruct CH as (C1 & C2 & C3 & C4 & C5). rewrite Z in C4. destruct C4 as (_ & (bs' & ->) & _).
    destruct es as [|e2 es]; [destruct C5|]. destruct C5 as (C5 & _). lia. }
  unfold cur_indent in H. destruct (indent_ltb (if c_started c then Some (c_indent c) else None) (scol st)) eqn:LT.
  - injection H as <- <-. exists ((scol st, map) :: l). split; [|split; [|split; [discriminate|split; [exact B|discriminate]]]].
    + apply (en_open _ _ _ _ _ _ COL SY). unfold deeper. destruct (c_started c) eqn:S.
      * cbn in LT. apply Nat.ltb_lt in LT. destruct l as [|[c0 m0] l]; cbn in IN; [intros _; lia|left; lia].
      * rewrite (ST eq_refl). discriminate.
    + intros st1 _ U. cbn. repeat split; auto; try lia. destruct (c_started c) eqn:S.
      * cbn in LT. apply Nat.ltb_lt in LT. right. lia.
      * left. apply ST. reflexivity.
  - destruct (c_started c) eqn:S; [|discriminate]. cbn in LT. apply Nat.ltb_ge in LT.
    assert (EQ : c_indent c = scol st) by lia. cbn [indent_eqb] in H. rewrite EQ, Nat.eqb_refl, andb_true_r in H.
    assert (HERE : (map = false -> match l with (_, m0) :: _ => m0 = false | [] => True end) ->
      enters t true l map (sread st) [] true l).
    { intros MM. apply (en_here _ _ _ _ _ _ COL SY). unfold belongs. destruct l as [|[c0 m0] l]; cbn in IN; [split; [reflexivity|lia]|].
      split; [lia|exact MM]. }
    destruct map; cbn [negb] in H.
    + injection H as <- <-. exists l. rewrite S. split; [apply HERE; discriminate|]. repeat split; auto; discriminate.
    + destruct (c_indents c) as [|e es] eqn:I.
      * injection H as <- <-. exists l. rewrite S, I. apply unbroken_nil in CH as CH'. destruct CH' as [-> _]. split; [apply HERE; auto|]. auto.
      * destruct l as [|[c0 m0] l]; [destruct CH|]. destruct (ie_map e) eqn:M.
        -- injection H as <- <-. exists ((scol st, false) :: (c0, m0) :: l). split; [|split; [|split; [discriminate|split; [exact B|cbn; auto]]]].
           ++ apply (en_open t true _ false _ _ COL SY). right. destruct CH as (C1 & C2 & _). repeat split; [lia|congruence].
           ++ intros st1 PA U. cbn [indent_increment c_indents c_indent]. destruct U as (C1 & C2 & C3 & C4 & C5).
              cbn [unbroken ie_indent ie_map ie_zero ie_line].
              repeat split; auto; try lia.
              ** exists l. congruence.
              ** rewrite I. cbn. auto.
        -- injection H as <- <-. exists ((c0, m0) :: l). rewrite S, I. split; [apply HERE; destruct CH as (_ & C2 & _); congruence|]. auto.
Qed.

Lemma refresh_unbroken c st st1 l : unbroken st1 (c_indents c) (c_indent c) l -> past (slines st) (scol st) st1 ->
  match c_indents c with e :: _ => ie_zero e = true -> ie_indent e = c_indent c | [] => True end ->
  unbroken st1 (c_indents (refresh_line c st)) (c_indent (refresh_line c st)) l /\
  c_flow (refresh_line c st) = c_flow c /\ c_started (refresh_line c st) = c_started c.
Proof.
  unfold refresh_line. intros U PA ZE. destruct (c_indents c) as [|e es] eqn:I; [rewrite I; auto|].
  destruct (_ && _) eqn:D; [|rewrite I; auto]. apply andb_prop in D as [D _]. apply Nat.eqb_eq in D.
  split; [|auto]. cbn [c_indents c_indent]. destruct l as [|[c0 m0] l]; [destruct U|].
  destruct U as (C1 & C2 & C3 & C4 & C5). cbn. repeat split; auto. destruct (ie_zero e); [|exact C4].
  destruct C4 as (C4 & C6 & C7). repeat split; auto. specialize (ZE eq_refl). rewrite <- C1, <- ZE, D. exact PA.
Qed.

Lemma linv_char o t h c r sc es ska l' ks' cx : plainb c -> valid (c :: r) -> reads t stats0 (c :: r) (sc_st sc) ->
  laid_out (known o t) t nothing_open (h ++ es) (Layout (c_started cx) l' (c_flow cx) ks' (sread (sc_st sc) + 1)) ->
  unbroken (supd (sc_st sc) 1 0 1) (c_indents cx) (c_indent cx) l' -> (c_started cx = false -> l' = []) ->
  linv o t (h ++ es) r (mkSc (sc_offset sc) (sc_state sc) ska (supd (sc_st sc) 1 0 1) None cx).
Proof.
  intros P V R L CH ST. assert (R' : reads t stats0 r (supd (sc_st sc) 1 0 1)) by (eapply reads_trans; [exact R|apply reads_char; assumption]).
  split; [exact R'|]. exists l', ks', (sread (sc_st sc) + 1). cbn [sc_cxt sc_st sc_key].
  split; [exact L|]. split; [split; [exact (leads_here _ _ _ R')|cbn; lia]|]. auto.
Qed.

Lemma shows_head t b st c r : reads t stats0 b st -> b = c :: r -> stands_at t (sread st) c.
Proof. intros R E. exists r. rewrite <- E. symmetry. apply (exact_suffix _ _ _ R). Qed.

Lemma plain_kinds o b st c tok n st' : valid b -> content o b st c tok n st' -> token_of_content (maybe_marker tok) = true.
Proof.
  intros V H. destruct H as [A|start A B C|k tok buf n d A B C D E|tok n d A B|alias tok buf n d A B C
    |single tok n d A B|tok n st' A B|fold tok n st' A B C].
  - reflexivity.
  - destruct start; reflexivity.
  - destruct (ScanFacts.directive_kind _ _ _ _ _ _ _ D) as [(x & y & ->)|(h & p & ->)]; reflexivity.
  - destruct (tag_kind _ _ _ _ _ _ B) as (h & s & ->). reflexivity.
  - destruct (anchor_kind _ _ _ _ _ _ _ B) as (m & ->). destruct alias; reflexivity.
  - destruct (at_is_cons _ _ A) as (r & ->).
    assert (Q : (if single then 39%N else 34%N) = 39%N \/ (if single then 39%N else 34%N) = 34%N) by (destruct single; auto).
    pose proof (leaf_inv _ _ _ _ _ (scan_flow_leaf o _ r stats0 single Q V) B) as (_ & _ & T).
    destruct tok as [[]|[]]; cbn in *; try contradiction; reflexivity.
  - pose proof (leaf_inv _ _ _ _ _ (scan_plain_leaf o b st c A) B) as (_ & _ & T).
    destruct tok as [[]|[]]; cbn in *; try contradiction; reflexivity.
  - destruct (at_is_cons _ _ A) as (r & ->).
    assert (PB : plain_byte (if fold then 62%N else 124%N)) by (destruct fold; repeat split; discriminate).
    pose proof (leaf_inv _ _ _ _ _ (scan_block_leaf o _ r st c fold PB) C) as (_ & _ & T & _).
    destruct tok as [[]|[]]; cbn in *; try contradiction; reflexivity.
Qed.

Lemma linv_act o t h b sc es b' sc' : act o b sc es b' sc' -> valid b -> exact b -> lazy_mode o = false ->
  skips false b b -> fresh sc -> lvl b sc -> linv o t h b sc -> linv o t (h ++ es) b' sc'.
Proof.
  intros A V EXB LZ SB FS LV (R & l & ks & m & L & (LM & M) & CH & ST & K).
  pose proof (leads_next _ _ _ _ R LM SB M) as NX. pose proof (reads_column _ _ _ R) as COL.
  assert (SY : c_flow (sc_cxt sc) = 0 -> stays t l (sread (sc_st sc)) (scol (sc_st sc))).
  { intros F. eapply inside_stays; [exact CH|]. rewrite <- (exact_suffix _ _ _ R). apply LV, F. }
  destruct A as [tok n st' ska key b' CT EB CN EX VB KN KG CD CE|map r key EB KN|map r c' EB FD|r c1 pre EB BK SK RL
    |r c1 pre EB SK RL|r k c1 pre EB KE AL RL|r c1 pre EB NK SK RL].
  - (* content *)
    assert (RD : reads b (sc_st sc) b' st') by (destruct (EX EXB) as [X|[X _]]; [exact X|congruence]).
    pose proof (reads_len _ _ _ _ RD) as (RL1 & RL2 & _). pose proof (exact_suffix _ _ _ R) as EB0.
    assert (RT : reads t stats0 b' st') by (eapply reads_trans; eauto).
    split; [exact RT|]. exists l, (sread (sc_st sc) :: ks), (sread st'). cbn [sc_cxt sc_st sc_key].
    split; [|split; [split; [exact (leads_here _ _ _ RT)|lia]|split; [exact (unbroken_reads _ _ _ _ _ RD _ _ CH)|split; [exact ST|]]]].
    + eapply laid_snoc; [exact L|].
      change (sread st') with (e_read (mkEntry tok (sread st'))) at 2.
      apply fd_content with (c := scol (sc_st sc)).
      * exact NX.
      * cbn. lia.
      * exact COL.
      * apply (plain_kinds _ _ _ _ _ _ _ V CT).
      * exact SY.
      * intros F PD. specialize (CD PD (proj2 (block_flow _) F)). rewrite CD in CH. apply unbroken_nil in CH. tauto.
      * exists (sc_st sc), (sc_cxt sc), n, st'. cbn [e_wrap e_read flows begun_before blocks]. rewrite <- EB0. split; [exact CT|]. repeat split; auto.
        -- rewrite <- skipn_skipn, <- EB0, <- EB. exact RT.
        -- apply (unbroken_innermost _ _ _ _ CH).
    + destruct KN as [->|[KN|(rq & ->)]].
      * destruct (sc_key sc) as [k|]; [|exact Logic.I]. intros AL. destruct (K AL) as (bk & K1 & K2 & K3 & K4). exists bk.
        split; [exact K1|]. split; [eapply reads_trans; eauto|]. split; [right; exact K3|exact K4].
      * destruct key; [|exact Logic.I]. cbn in KN. congruence.
      * intros _. exists b. cbn [new_key k_stats]. split; [exact R|]. split; [exact RD|]. split; [left; reflexivity|].
        intros B. apply LV, block_flow, B.
  - (* opening a flow collection *)
    assert (P : plainb (if map then 123%N else 91%N)) by (destruct map; repeat split; discriminate).
    subst b. assert (R1 := reads_char _ _ (sc_st sc) V P).
    assert (RT : reads t stats0 r (supd (sc_st sc) 1 0 1)) by (eapply reads_trans; eauto).
    split; [exact RT|]. exists l, (sread (sc_st sc) + 1 :: ks), (sread (sc_st sc) + 1).
    cbn [sc_cxt sc_st sc_key flow_increment c_started c_flow c_indents c_indent].
    split; [|split; [split; [exact (leads_here _ _ _ RT)|cbn; lia]|split; [exact (unbroken_reads _ _ _ _ _ R1 _ _ CH)|split; [exact ST|]]]].
    + eapply laid_snoc; [exact L|]. apply (fd_flow_open _ _ _ _ _ _ _ _ (scol (sc_st sc)) map NX); auto. eapply shows_head; eauto.
    + destruct KN as [->|[KN|(rq & ->)]].
      * destruct (sc_key sc) as [k|]; [|exact Logic.I]. intros AL. destruct (K AL) as (bk & K1 & K2 & K3 & K4). exists bk.
        split; [exact K1|]. split; [eapply reads_trans; eauto|]. split; [right; exact K3|discriminate].
      * destruct key; [|exact Logic.I]. cbn in KN. congruence.
      * intros _. exists r. cbn [new_key k_stats]. split; [exact RT|]. split; [constructor|]. split; [left; reflexivity|discriminate].
  - (* closing one *)
    unfold flow_decrement in FD. destruct (c_flow (sc_cxt sc)) as [|f] eqn:FF; [discriminate|]. injection FD as <-. subst b.
    assert (P : plainb (if map then 125%N else 93%N)) by (destruct map; repeat split; discriminate).
    eapply linv_char with (c := (if map then 125%N else 93%N)) (l' := l) (ks' := ks); cbn [c_indents c_indent c_started c_flow]; auto.
    + eapply laid_snoc; [exact L|]. apply (fd_flow_close _ _ _ _ _ _ _ _ map NX). eapply shows_head; eauto.
    + eapply unbroken_reads; [exact (reads_char _ _ (sc_st sc) V P)|exact CH].
  - (* dash *)
    subst b. pose proof (proj1 (block_flow _) BK) as FF.
    assert (P : plainb 45%N) by (repeat split; discriminate). pose proof (reads_char _ _ (sc_st sc) V P) as R1.
    assert (PA : past (slines (sc_st sc)) (scol (sc_st sc)) (supd (sc_st sc) 1 0 1)) by (right; cbn; lia).
    destruct (roll_enters t _ _ _ _ _ _ _ _ RL BK R CH ST (LV FF)) as (l' & EN & CH' & ST' & F' & ZE).
    specialize (CH' _ (fun _ => PA) (unbroken_reads _ _ _ _ _ R1 _ _ CH)).
    destruct (refresh_unbroken c1 (sc_st sc) _ l' CH' PA (ZE eq_refl)) as (CH2 & F2 & S2).
    eapply linv_char with (c := 45%N) (l' := l') (ks' := ks); auto; [|rewrite S2; exact ST'].
    rewrite F2, S2, F'. eapply laid_snoc; [exact L|]. rewrite FF. apply fd_dash with (l := l); auto. eapply shows_head; eauto.
  - (* question mark *)
    subst b. assert (P : plainb 63%N) by (repeat split; discriminate). pose proof (reads_char _ _ (sc_st sc) V P) as R1.
    pose proof (unbroken_reads _ _ _ _ _ R1 _ _ CH) as CH1.
    destruct (is_block (sc_cxt sc)) eqn:BK.
    + pose proof (proj1 (block_flow _) BK) as FF.
      destruct (roll_enters t _ _ _ _ _ _ _ _ RL BK R CH ST (LV FF)) as (l' & EN & CH' & ST' & F' & _).
      eapply linv_char with (c := 63%N) (l' := l') (ks' := ks); auto; [|apply CH'; [discriminate|exact CH1]].
      rewrite F'. eapply laid_snoc; [exact L|]. rewrite FF. apply fd_question with (l := l); auto. eapply shows_head; eauto.
    + unfold roll in RL. rewrite BK in RL. injection RL as <- <-.
      eapply linv_char with (c := 63%N) (l' := l) (ks' := ks); auto.
      eapply laid_snoc; [exact L|]. destruct (c_flow (sc_cxt sc)) as [|f] eqn:FF; [apply block_flow in FF; congruence|].
      apply fd_question_flow; auto. eapply shows_head; eauto.
  - (* colon after a key *)
    subst b. assert (P : plainb 58%N) by (repeat split; discriminate). pose proof (reads_char _ _ (sc_st sc) V P) as R1.
    pose proof (unbroken_reads _ _ _ _ _ R1 _ _ CH) as CH1.
    unfold fresh in FS. rewrite KE in K, FS. destruct (K AL) as (bk & K1 & K2 & K3 & K4). destruct (FS AL) as [FS1 FS2].
    assert (KB : key_begins t ks (sread (k_stats k)) (sread (sc_st sc))).
    { split; [exact K3|]. split; [|eapply reads_line; eauto]. apply reads_len in K2 as (K5 & K6 & _). split; [lia|]. lia. }
    destruct (is_block (sc_cxt sc)) eqn:BK.
    + pose proof (proj1 (block_flow _) BK) as FF.
      destruct (roll_enters t _ _ _ _ _ _ _ _ RL BK K1 CH ST (K4 eq_refl)) as (l' & EN & CH' & ST' & F' & _).
      eapply linv_char with (c := 58%N) (l' := l') (ks' := ks); auto; [|apply CH'; [discriminate|exact CH1]].
      rewrite F'. eapply laid_snoc; [exact L|]. rewrite FF. apply fd_implicit with (l := l); auto. eapply shows_head; eauto.
    + unfold roll in RL. rewrite BK in RL. injection RL as <- <-.
      eapply linv_char with (c := 58%N) (l' := l) (ks' := ks); auto.
      eapply laid_snoc; [exact L|]. destruct (c_flow (sc_cxt sc)) as [|f] eqn:FF; [apply block_flow in FF; congruence|].
      apply fd_implicit_flow; auto. eapply shows_head; eauto.
  - (* colon without one *)
    subst b. assert (P : plainb 58%N) by (repeat split; discriminate). pose proof (reads_char _ _ (sc_st sc) V P) as R1.
    pose proof (unbroken_reads _ _ _ _ _ R1 _ _ CH) as CH1.
    destruct (is_block (sc_cxt sc)) eqn:BK.
    + pose proof (proj1 (block_flow _) BK) as FF.
      destruct (roll_enters t _ _ _ _ _ _ _ _ RL BK R CH ST (LV FF)) as (l' & EN & CH' & ST' & F' & _).
      eapply linv_char with (c := 58%N) (l' := l') (ks' := ks); auto; [|apply CH'; [discriminate|exact CH1]].
      rewrite F'. eapply laid_snoc; [exact L|]. rewrite FF. apply fd_value with (l := l); auto. eapply shows_head; eauto.
    + unfold roll in RL. rewrite BK in RL. injection RL as <- <-.
      eapply linv_char with (c := 58%N) (l' := l) (ks' := ks); auto.
      eapply laid_snoc; [exact L|]. destruct (c_flow (sc_cxt sc)) as [|f] eqn:FF; [apply block_flow in FF; congruence|].
      apply fd_value_flow; auto. eapply shows_head; eauto.
Qed.

Lemma linv_begin o t b sc : sread (sc_st sc) = 0 -> linv o t [] b sc ->
  linv o t [mkEntry (Tok TStreamStart) 0] b (set_state SStream (set_ska true sc)).
Proof.
  intros Z (R & l & ks & m & L & H). split; [exact R|].
  exists l, ks, m. split; [|exact H]. apply (laid_snoc _ _ _ [] _ _ _ L). apply fd_stream_start.
Qed.
Lemma linv_finish o t h sc : (is_block (sc_cxt sc) = true -> c_indents (sc_cxt sc) = []) -> linv o t h [] sc ->
  linv o t (h ++ [mkEntry (Tok TStreamEnd) (sread (sc_st sc))]) [] (set_state SDone sc).
Proof.
  intros BE (R & l & ks & m & L & (LM & M) & CH & ST & K). split; [exact R|].
  exists l, ks, (sread (sc_st sc)). cbn [sc_cxt sc_st sc_key set_state].
  split; [|split; [split; [exact (leads_here _ _ _ R)|lia]|auto]].
  eapply laid_snoc; [exact L|]. apply fd_stream_end.
  - apply (leads_next _ _ _ _ R LM (sk_eof _) M).
  - symmetry. apply (exact_suffix _ _ _ R).
  - intros F. apply block_flow in F. rewrite (BE F) in CH. apply unbroken_nil in CH. tauto.
Qed.
