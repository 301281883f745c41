(** The state of the scanner behind a document marker. *)
From Verif Require Import StreamFacts.
From Verif Require Export Runs.
From Coq Require Import Lia ZifyBool ZifyN ZifyNat.
Open Scope nat_scope.

Definition docmark (m : marker) : bool := match m with MDocumentStart | MDocumentEnd => true | _ => false end.

(** The column below all open block collections is the first. *)
Fixpoint ground (l : list indent_entry) (i : nat) : Prop :=
  match l with [] => i = 0 | e :: r => ground r (ie_indent e) end.
(** A block collection is remembered if and only if one was opened. *)
Definition recall (h : list entry) (sc : scanner) : Prop :=
  ground (c_indents (sc_cxt sc)) (c_indent (sc_cxt sc)) /\
  c_started (sc_cxt sc) = Nat.ltb 0 (count block_open h).
(** The last token ends where the scanner stands.  Behind a marker nothing is pending. *)
Definition rest (h : list entry) (sc : scanner) : Prop := forall g e, h = g ++ [e] ->
  e_read e = sread (sc_st sc) /\
  (docmark (e_marker e) = true -> sc_ska sc = false /\ sc_key sc = None /\ scol (sc_st sc) = 3 /\ 3 <= sread (sc_st sc) /\
    sc_state sc = SStream /\ (is_block (sc_cxt sc) = true -> c_indents (sc_cxt sc) = [])).

Lemma pop_ground col : forall l i i' l' n, pop_indents l i col = (i', l', n) -> ground l i -> ground l' i'.
Proof.
  induction l as [|e l IH]; intros i i' l' n; cbn [pop_indents].
  - destruct (indent_gt i col); intros [= <- <- _]; auto.
  - destruct (indent_gt i col); [|intros [= <- <- _]; auto].
    destruct (pop_indents l (ie_indent e) col) as [[i1 l1] n1] eqn:E. intros [= <- <- _] G. exact (IH _ _ _ _ E G).
Qed.
Lemma decrement_ground c col c' n : indent_decrement c col = (c', n) -> ground (c_indents c) (c_indent c) ->
  ground (c_indents c') (c_indent c').
Proof.
  unfold indent_decrement. destruct (is_block c); [|intros [= <- _]; auto].
  destruct (pop_indents _ _ _) as [[i l] m] eqn:E. intros [= <- _] G. exact (pop_ground _ _ _ _ _ _ E G).
Qed.
Lemma cause_ground b sc n c : cause b sc n c -> ground (c_indents (sc_cxt sc)) (c_indent (sc_cxt sc)) ->
  ground (c_indents c) (c_indent c).
Proof.
  intros [E|E _|e l I _ _ _ E] G.
  - exact (decrement_ground _ _ _ _ E G).
  - exact (decrement_ground _ _ _ _ E G).
  - unfold pop_indent in E. rewrite I in E, G. injection E as <- _. exact G.
Qed.
Lemma recall_same h h' sc sc' : recall h sc -> sc_cxt sc' = sc_cxt sc -> count block_open h' = count block_open h -> recall h' sc'.
Proof. unfold recall. intros R -> ->. exact R. Qed.
Lemma quiet_recall b sc es b' sc' : quiet b sc es b' sc' -> forall h, recall h sc -> recall (h ++ es) sc'.
Proof.
  induction 1 as [b sc|b sc b1 st1 ska es b' sc' SK R Q IH|b sc k es b' sc' K Q IH|b sc v es b' sc' Q IH
    |b sc n c es b' sc' C CA SB Q IH]; intros h J; auto.
  - rewrite app_nil_r. exact J.
  - rewrite app_assoc. apply IH. destruct C as (_ & _ & _ & C), J as [J1 J2]. split.
    + exact (cause_ground _ _ _ _ CA J1).
    + cbn [set_cxt sc_cxt]. rewrite C, J2, count_app, count_ends, Nat.add_0_r. reflexivity.
Qed.
Lemma roll_recall h sc st map c' pre tail sc' : roll (sc_cxt sc) st map = (c', pre) -> recall h sc ->
  count block_open tail = 0 -> sc_cxt sc' = c' -> recall (h ++ pre ++ tail) sc'.
Proof.
  intros R [G S] T E. unfold recall. rewrite !count_app, T, E. clear E. revert R. unfold roll.
  assert (ST : forall e, count block_open [mkEntry (Tok (if map then TBlockMappingStart else TBlockSequenceStart)) e] = 1).
  { intros e. destruct map; reflexivity. }
  assert (SAME : ground (c_indents (sc_cxt sc)) (c_indent (sc_cxt sc)) /\ c_started (sc_cxt sc) = Nat.ltb 0 (count block_open h + (count block_open [] + 0))).
  { split; [exact G|]. rewrite S. cbn. rewrite Nat.add_0_r. reflexivity. }
  destruct (is_block (sc_cxt sc)); [|intros [= <- <-]; exact SAME].
  assert (INC : forall z, let c := indent_increment (sc_cxt sc) (scol st) (slines st) map z in
    ground (c_indents c) (c_indent c) /\ c_started c = Nat.ltb 0 (count block_open h + (count block_open [mkEntry (Tok (if map then TBlockMappingStart else TBlockSequenceStart)) (sread st)] + 0))).
  { intros z. cbv zeta. rewrite ST. split; [exact G|]. cbn [indent_increment c_started]. symmetry. apply Nat.ltb_lt. lia. }
  destruct (indent_ltb _ _); [intros [= <- <-]; apply INC|].
  destruct (negb map && _); [|intros [= <- <-]; exact SAME].
  destruct (c_indents (sc_cxt sc)) as [|e l] eqn:CI; [intros [= <- <-]; rewrite CI; exact SAME|].
  destruct (ie_map e); intros [= <- <-]; [apply INC|rewrite CI; exact SAME].
Qed.
Lemma refresh_recall h c st sc' sc : recall h sc -> sc_cxt sc = c -> sc_cxt sc' = refresh_line c st -> recall h sc'.
Proof.
  unfold recall. intros [G S] E ->. rewrite E in *. unfold refresh_line. destruct (c_indents c) as [|e l] eqn:I; [rewrite I; auto|].
  destruct (_ && _); cbn [c_indents c_indent c_started]; [|rewrite I; auto]. split; [exact G|exact S].
Qed.

Lemma content_docmark o b st c tok n st' : valid b -> content o b st c tok n st' -> docmark (maybe_marker tok) = true ->
  scol st' = 3 /\ 3 <= sread st'.
Proof.
  intros V H M. destruct H as [A|start A B C|k tok buf n d A B C D E|tok n d A B|alias tok buf n d A B C
    |single tok n d A B|tok n st' A B|fold tok n st' A B C].
  - discriminate.
  - unfold supd. cbn. rewrite B. split; [reflexivity|lia].
  - destruct (ScanFacts.directive_kind _ _ _ _ _ _ _ D) as [(x & y & ->)|(h & p & ->)]; discriminate.
  - destruct (tag_kind _ _ _ _ _ _ B) as (h & s & ->). discriminate.
  - destruct (anchor_kind _ _ _ _ _ _ _ B) as (m & ->). destruct alias; discriminate.
  - destruct (at_is_cons _ _ A) as (r & ->).
    assert (Q : (if single then 39%N else 34%N) = 39%N \/ (if single then 39%N else 34%N) = 34%N) by (destruct single; auto).
    pose proof (leaf_inv _ _ _ _ _ (scan_flow_leaf o _ r stats0 single Q V) B) as (_ & _ & T).
    destruct tok as [[]|[]]; cbn in *; try contradiction; discriminate.
  - pose proof (leaf_inv _ _ _ _ _ (scan_plain_leaf o b st c A) B) as (_ & _ & T).
    destruct tok as [[]|[]]; cbn in *; try contradiction; discriminate.
  - destruct (at_is_cons _ _ A) as (r & ->).
    assert (PB : plain_byte (if fold then 62%N else 124%N)) by (destruct fold; repeat split; discriminate).
    pose proof (leaf_inv _ _ _ _ _ (scan_block_leaf o _ r st c fold PB) C) as (_ & _ & T & _).
    destruct tok as [[]|[]]; cbn in *; try contradiction; discriminate.
Qed.

Lemma rest_plain h es e sc : e_read e = sread (sc_st sc) -> docmark (e_marker e) = false -> rest (h ++ es ++ [e]) sc.
Proof.
  intros R D g x E. rewrite app_assoc in E. apply app_inj_tail in E as [_ <-]. split; [exact R|congruence].
Qed.
Lemma act_recall o b sc es b' sc' : act o b sc es b' sc' -> valid b -> sc_state sc = SStream -> forall h, recall h sc ->
  recall (h ++ es) sc' /\ forall pre, rest (pre ++ es) sc'.
Proof.
  intros A V ST h J.
  destruct A as [tok n st' ska key b' CT EB CN EX VB KN KG CD CE|map r key EB KN|map r c' EB FD|r c1 pre EB BK SK RL
    |r c1 pre EB SK RL|r k c1 pre EB KE AL RL|r c1 pre EB NK SK RL].
  - split.
    + apply (recall_same h _ sc); [exact J|reflexivity|].
      pose proof (content_neutral _ _ _ _ _ _ _ V CT) as N. pose proof (neutral_counts _ N) as (_ & N2 & _).
      rewrite count_app, count_cons. change (e_marker (mkEntry tok (sread st'))) with (maybe_marker tok). rewrite N2.
      change (count block_open []) with 0. lia.
    + intros pre g e E. apply app_inj_tail in E as [_ <-]. split; [reflexivity|].
      change (e_marker (mkEntry tok (sread st'))) with (maybe_marker tok). intros D.
      assert (PD : parts_documents (maybe_marker tok) = true) by (destruct (maybe_marker tok); try discriminate; reflexivity).
      destruct (CE PD) as [K1 K2]. cbn [sc_ska sc_key sc_st sc_cxt sc_state]. split; [exact K1|]. split; [exact K2|].
      destruct (content_docmark _ _ _ _ _ _ _ V CT D) as [K3 K4]. split; [exact K3|]. split; [exact K4|]. split; [exact ST|]. exact (CD PD).
  - split; [|intros pre; apply (rest_plain pre []); [cbn; lia|destruct map; reflexivity]].
    destruct J as [J1 J2]. split; [exact J1|]. cbn [sc_cxt flow_increment c_started]. rewrite J2, count_app.
    assert (Z : count block_open [mkEntry (Tok (if map then TFlowMappingStart else TFlowSequenceStart)) (sread (sc_st sc) + 1)] = 0) by (destruct map; reflexivity).
    rewrite Z, Nat.add_0_r. reflexivity.
  - split; [|intros pre; apply (rest_plain pre []); [cbn; lia|destruct map; reflexivity]].
    unfold flow_decrement in FD. destruct (c_flow (sc_cxt sc)) as [|f] eqn:FF; [discriminate|].
    assert (c' = mkCxt f (c_indent (sc_cxt sc)) (c_indents (sc_cxt sc)) (c_started (sc_cxt sc))) as -> by congruence.
    destruct J as [J1 J2]. split; [exact J1|]. cbn [sc_cxt c_started]. rewrite J2, count_app.
    assert (Z : count block_open [mkEntry (Tok (if map then TFlowMappingEnd else TFlowSequenceEnd)) (sread (sc_st sc) + 1)] = 0) by (destruct map; reflexivity).
    rewrite Z, Nat.add_0_r. reflexivity.
  - split; [|intros g0; apply rest_plain; [cbn; lia|reflexivity]].
    apply (refresh_recall _ c1 (sc_st sc) _ (set_cxt c1 sc)); [|reflexivity|reflexivity].
    apply (roll_recall h sc (sc_st sc) false c1 pre); [exact RL|exact J|reflexivity|reflexivity].
  - split; [|intros g0; apply rest_plain; [cbn; lia|reflexivity]].
    apply (roll_recall h sc (sc_st sc) true c1 pre); [exact RL|exact J|reflexivity|reflexivity].
  - split.
    + apply (roll_recall h sc (k_stats k) true c1 pre); [exact RL|exact J|reflexivity|reflexivity].
    + intros g0. replace (pre ++ [mkEntry (Tok TKey) (sread (k_stats k)); mkEntry (Tok TValue) (sread (sc_st sc) + 1)])
        with ((pre ++ [mkEntry (Tok TKey) (sread (k_stats k))]) ++ [mkEntry (Tok TValue) (sread (sc_st sc) + 1)]) by (rewrite <- app_assoc; reflexivity).
      apply rest_plain; [cbn; lia|reflexivity].
  - split; [|intros g0; apply rest_plain; [cbn; lia|reflexivity]].
    apply (roll_recall h sc (sc_st sc) true c1 pre); [exact RL|exact J|reflexivity|reflexivity].
Qed.
Lemma round_recall o b sc es b' sc' : round o b sc es b' sc' -> valid b -> forall h, recall h sc ->
  recall (h ++ es) sc' /\ rest (h ++ es) sc'.
Proof.
  intros R V h J. destruct R as [ST|es sc1 ST Q KN BE|e0 e1 es b1 sc0 sc2 sc1 fs b' sc' ST Q0 SB LV Q1 DS Q F A].
  - split; [|apply (rest_plain h []); reflexivity]. apply (recall_same h _ sc); [exact J|reflexivity|]. rewrite count_app. cbn. lia.
  - split; [|apply rest_plain; reflexivity]. rewrite app_assoc. apply (recall_same (h ++ es) _ sc1); [exact (quiet_recall _ _ _ _ _ Q h J)|reflexivity|].
    rewrite (count_app _ (h ++ es)). cbn. lia.
  - destruct (quiet_state _ _ _ _ _ Q0) as [ST0 _]. destruct (quiet_state _ _ _ _ _ Q1) as [ST2 _].
    destruct (quiet_state _ _ _ _ _ Q) as [ST1 _].
    pose proof (quiet_recall _ _ _ _ _ Q _ (quiet_recall _ _ _ _ _ Q1 _ (quiet_recall _ _ _ _ _ Q0 h J))) as J1.
    assert (V1 : valid b1) by (eapply reads_valid; [exact (quiet_reads _ _ _ _ _ Q0)|exact V]).
    destruct (act_recall _ _ _ _ _ _ A V1 ltac:(congruence) _ J1) as [X Y]. rewrite !app_assoc. split; [exact X|apply Y].
Qed.

(** ** Runs *)
Lemma round_parts o t h b sc : extendable o = false -> inv o t h b sc -> stands t b sc -> begun sc -> recall h sc ->
  sc_state sc <> SDone ->
  exists es sc' r, (forall q, scan_round o t sc q = (sc', pushes es q, r)) /\
    match r with
    | Ok _ => exists b', inv o t (h ++ es) b' sc' /\ stands t b' sc' /\ begun sc' /\
        left_to_do b' sc' < left_to_do b sc /\ recall (h ++ es) sc' /\ rest (h ++ es) sc'
    | _ => True
    end.
Proof.
  intros NE I G B J ND.
  destruct (wp_round o b sc (i_valid _ _ _ _ _ I) ND) as (es & b' & sc' & r & E & O).
  exists es.
  exists (match r with Ok _ | Err Extend => set_offset (List.length t - List.length b') sc' | _ => sc' end), r.
  split.
  - intros q. unfold scan_round. rewrite G, E. cbn. destruct r as [a|e| |]; [reflexivity|destruct e; reflexivity|reflexivity|reflexivity].
  - destruct r as [a|e| |]; auto. cbn in O.
    exists b'. pose proof (round_inv o t _ _ _ _ _ O h I B) as I'.
    split; [apply inv_offset, I'|]. split.
    { unfold stands, get_from. cbn. destruct (i_suffix _ _ _ _ _ I') as (n & -> & BD).
      rewrite skipn_length. pose proof (boundary_le _ _ BD) as LE.
      replace (List.length t - (List.length t - n)) with n by lia. rewrite BD. reflexivity. }
    split; [intros X; destruct (round_state _ _ _ _ _ _ O X)|]. split; [exact (round_less _ _ _ _ _ _ O)|].
    exact (round_recall _ _ _ _ _ _ O (i_valid _ _ _ _ _ I) h J).
Qed.
Lemma loop_parts o t : extendable o = false -> forall fuel h b sc, inv o t h b sc -> stands t b sc -> begun sc ->
  recall h sc -> rest h sc -> left_to_do b sc < fuel -> forall n q, exists es,
    match scan_loop fuel o t n sc q with
    | (sc', q', Ok _) => q' = pushes es q /\ recall (h ++ es) sc' /\ rest (h ++ es) sc'
    | _ => True
    end.
Proof.
  intros NE. induction fuel as [|fuel IH]; intros h b sc I G B J R L n q; [lia|]. cbn [scan_loop].
  destruct (want_more n sc q) eqn:W.
  - assert (ND : sc_state sc <> SDone) by (intros X; unfold want_more in W; rewrite X in W; discriminate).
    destruct (round_parts o t h b sc NE I G B J ND) as (es & sc' & r & E & O). rewrite E.
    destruct r as [[]|e| |]; try (exists []; exact Logic.I).
    destruct O as (b' & I' & G' & B' & L' & J' & R'). destruct (IH _ _ _ I' G' B' J' R' ltac:(lia) n (pushes es q)) as (es2 & O2).
    exists (es ++ es2). destruct (scan_loop fuel o t n sc' (pushes es q)) as [[sc2 q2] [a|e| |]]; auto.
    rewrite app_assoc, pushes_app. exact O2.
  - exists []. rewrite app_nil_r. auto.
Qed.
Lemma calls_parts o t k : extendable o = false -> valid t ->
  match calls o t k with (h, sc, Ok _) => recall h sc /\ rest h sc | _ => True end.
Proof.
  intros NE V. induction k as [|k IH]; cbn [calls].
  - split; [split; reflexivity|]. intros g e E. destruct g; discriminate.
  - destruct (calls_good o t k NE V) as [G _]. destruct (calls o t k) as [[h sc] [a|e| |]]; auto. destruct IH as [J R].
    destruct G as (b & I & G & B & _). assert (L : left_to_do b sc < List.length t + 3).
    { unfold left_to_do. destruct (i_suffix _ _ _ _ _ I) as (n & -> & _). rewrite skipn_length. lia. }
    unfold batch, scan_tokens. destruct (loop_parts o t NE _ h b sc I G B J R L (@q_len entry q_new) q_new) as (es & O).
    destruct (scan_loop _ _ _ _ _ _) as [[sc' q'] [u|e| |]]; auto. destruct O as (-> & O).
    rewrite pushes_heap. exact O.
Qed.

(** What a reader that has delivered a marker last and nothing more in store knows. *)
Lemma parts_reader t o s l m r : valid t -> consumes (open t o) s = (l ++ [m], Ok r) -> docmark (e_marker m) = true ->
  q_heap (r_q r) = [] ->
  e_read m = sread (sc_st (r_sc r)) /\ sc_ska (r_sc r) = false /\ sc_key (r_sc r) = None /\ scol (sc_st (r_sc r)) = 3 /\ 3 <= e_read m /\
  sc_state (r_sc r) = SStream /\ (is_block (sc_cxt (r_sc r)) = true -> c_indents (sc_cxt (r_sc r)) = []) /\
  ground (c_indents (sc_cxt (r_sc r))) (c_indent (sc_cxt (r_sc r))) /\
  c_started (sc_cxt (r_sc r)) = Nat.ltb 0 (count block_open (l ++ [m])) /\
  count flow_close (l ++ [m]) + c_flow (sc_cxt (r_sc r)) = count flow_open (l ++ [m]) /\
  r_in r = Borrow t /\ no_extend (r_opts r) = no_extend o /\ exists h, good (no_extend o) t h (r_sc r).
Proof.
  intros V E D Q. pose proof (consumes_history o t s _ _ V E) as H. pose proof (calls_parts (no_extend o) t (fills s) eq_refl V) as P.
  destruct (calls (no_extend o) t (fills s)) as [[h sc] [a|e| |]] eqn:C; destruct H as (_ & _ & H); [|destruct H; discriminate..|destruct H].
  destruct H as (r' & [= <-] & (RI & RO & _ & h' & rst & C' & HQ & HS) & G).
  assert (h' = h /\ sc = r_sc r) as [-> ->] by (rewrite C in C'; split; congruence). clear C'.
  assert (rst = []) as ->.
  { destruct HQ as (mk & PM & EM & _). rewrite Q in PM. apply Permutation.Permutation_nil in PM. subst mk. symmetry. exact EM. }
  change (isort []) with (@nil entry) in HS. rewrite app_nil_r in HS.
  destruct P as [[J1 J2] R]. pose proof G as (b & I & _).
  assert (CN : forall f, count f (l ++ [m]) = count f h).
  { intros f. rewrite <- HS. apply count_perm, isort_perm. }
  assert (exists g e, h = g ++ [e]) as (g & e & EH).
  { destruct h as [|x h] using rev_ind; [destruct l; discriminate|]. eauto. }
  assert (e = m) as ->.
  { pose proof (i_marks _ _ _ _ _ I) as M. destruct (R g e EH) as [RE _]. rewrite EH in HS, M. rewrite isort_snoc in HS.
    apply Forall_app in M as [M _]. rewrite ins_last in HS.
    - apply app_inj_tail in HS as [_ HS]. exact HS.
    - apply (Permutation.Permutation_Forall (Permutation.Permutation_sym (isort_perm g))). eapply Forall_impl; [|exact M]. cbn. lia. }
  destruct (R g m EH) as [R1 R2]. destruct (R2 D) as (R3 & R4 & R5 & R8 & R6 & R7).
  rewrite !CN. pose proof (i_flow _ _ _ _ _ I) as FL.
  repeat (split; [first [assumption|congruence|lia]|]). exists h. exact G.
Qed.
