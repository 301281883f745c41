(** One round of the scanner, token by token. *)
From Verif Require Export PlainStream SpecYaml.
From Verif Require Import StreamFacts.
From Verif Require BasicFacts Utf8Facts.
From Verif Require Import SpecYaml.
From Coq Require Import Lia ZifyBool ZifyN ZifyNat.
Open Scope nat_scope.

(** ** Reading is deterministic *)
Definition hop (x : str * stats) : str * stats :=
  let (s, st) := x in
  if is_empty s then x
  else if is_break s then (skipn (break_amt s) s, mkStats (sread st + break_amt s) (S (slines st)) 0)
  else (skipn 1 s, mkStats (S (sread st)) (slines st) (S (scol st))).
Fixpoint hops (n : nat) (x : str * stats) : str * stats := match n with O => x | S n => hops n (hop x) end.
Lemma hops_add n m x : hops (n + m) x = hops m (hops n x).
Proof. revert x. induction n as [|n IH]; intros x; [reflexivity|]. cbn [Nat.add hops]. apply IH. Qed.
Lemma text_hops n : forall s st, n <= List.length s -> (forall k, k < n -> is_break (skipn k s) = false) ->
  hops n (s, st) = (skipn n s, mkStats (sread st + n) (slines st) (scol st + n)).
Proof.
  induction n as [|n IH]; intros s st L B.
  - cbn [hops skipn]. rewrite !Nat.add_0_r. destruct st; reflexivity.
  - cbn [hops hop]. pose proof (B 0 ltac:(lia)) as B0. cbn [skipn] in B0. rewrite B0. destruct s as [|c s]; [cbn in L; lia|].
    cbn [skipn is_empty]. rewrite IH; [| cbn in L; lia | intros k K; apply (B (S k)); lia]. cbn [sread slines scol].
    f_equal. f_equal; lia.
Qed.
Lemma reads_hops s st s' st' : reads s st s' st' -> exists n, hops n (s, st) = (s', st').
Proof.
  induction 1 as [s st|s n st s' st' L B BD R IH|s st s' st' B BD R IH].
  - exists 0. reflexivity.
  - destruct IH as (m & E). exists (n + m). rewrite hops_add, text_hops by assumption. exact E.
  - destruct IH as (m & E). exists (S m). cbn [hops hop]. rewrite B. destruct s; [discriminate|]. exact E.
Qed.
Lemma hop_less x : fst x <> [] -> List.length (fst (hop x)) < List.length (fst x).
Proof.
  destruct x as [[|c s] st]; cbn [fst]; [congruence|]. intros _. cbn [hop is_empty]. destruct (is_break (c :: s)) eqn:B; cbn [fst].
  - apply is_break_nonempty in B as [_ B]. rewrite skipn_length. cbn [List.length]. lia.
  - cbn. lia.
Qed.
Lemma hops_less n : forall x, n <> 0 -> fst x <> [] -> List.length (fst (hops n x)) < List.length (fst x).
Proof.
  induction n as [|n IH]; intros x N X; [congruence|]. cbn [hops]. pose proof (hop_less x X).
  destruct n as [|n]; [exact H|]. destruct (fst (hop x)) as [|c s] eqn:E.
  - assert (HE : forall m y, fst y = [] -> hops m y = y).
    { induction m as [|m IM]; intros y Y; [reflexivity|]. cbn [hops]. destruct y as [s st]. cbn in Y. subst s. apply IM. reflexivity. }
    rewrite (HE (S n) (hop x) E), E. cbn in *. lia.
  - assert (X2 : fst (hop x) <> []) by (rewrite E; discriminate).
    pose proof (IH (hop x) ltac:(congruence) X2). rewrite <- E in H. exact (Nat.lt_trans _ _ _ H0 H).
Qed.
Lemma hops_nil n y : fst y = [] -> hops n y = y.
Proof. revert y. induction n as [|m IM]; intros y Y; [reflexivity|]. cbn [hops]. destruct y as [s st]. cbn in Y. subst s. apply IM. reflexivity. Qed.
Lemma reads_det a sa b sb sb' : reads a sa b sb -> reads a sa b sb' -> sb = sb'.
Proof.
  intros R1 R2. apply reads_hops in R1 as (n & E1), R2 as (m & E2).
  assert (W : forall n m, n <= m -> forall s1 s2, hops n (a, sa) = (b, s1) -> hops m (a, sa) = (b, s2) -> s1 = s2).
  { clear. intros n m L s1 s2 E1 E2. replace m with (n + (m - n)) in E2 by lia. rewrite hops_add, E1 in E2.
    destruct b as [|c b]; [rewrite hops_nil in E2 by reflexivity; congruence|].
    destruct (m - n) as [|d]; [cbn in E2; congruence|].
    pose proof (hops_less (S d) (c :: b, s1) ltac:(congruence) ltac:(cbn; congruence)) as X. exfalso.
    apply (f_equal (fun y => List.length (fst y))) in E2. change (List.length (fst (hops (S d) (c :: b, s1))) = S (List.length b)) in E2.
    change (List.length (fst (hops (S d) (c :: b, s1))) < S (List.length b)) in X. rewrite E2 in X. exact (Nat.lt_irrefl _ X). }
  destruct (Nat.le_ge_cases n m) as [L|L]; [eapply W; eauto|symmetry; eapply W; eauto].
Qed.
Lemma apart_det p p1 p2 : apart p p1 -> apart p p2 -> p1 = p2.
Proof.
  destruct p1 as [a sa], p2 as [b sb]. intros [S1 R1] [S2 R2]. cbn [text fst] in *.
  assert (a = b) as <- by (eapply skips_det; eauto). unfold moves in *. cbn [fst snd] in *.
  rewrite (reads_det _ _ _ _ _ R1 R2). reflexivity.
Qed.
Lemma moves_trans a b c : moves a b -> moves b c -> moves a c.
Proof. apply reads_trans. Qed.
Lemma moves_order p p' : moves p p' -> offset p <= offset p' /\ line p <= line p'.
Proof. intros M. split; [apply reads_len in M; unfold offset; lia|exact (reads_lines _ _ _ _ M)]. Qed.
Lemma moves_ascii p p' : moves p p' -> all_ascii (text p) -> all_ascii (text p').
Proof. intros M A. destruct (reads_suffix _ _ _ _ M) as (n & E & _). unfold text. rewrite E. apply ascii_skipn, A. Qed.
Lemma moves_soft p p' : moves p p' -> all_ascii (text p) -> soft (text p') (text p).
Proof.
  intros M A. destruct (reads_suffix _ _ _ _ M) as (n & E & _). exists (firstn n (text p)). unfold text in *. rewrite E.
  split; [symmetry; apply firstn_skipn|]. unfold ascii, all_ascii in *. rewrite <- (firstn_skipn n (fst p)) in A. apply Forall_app in A. apply A.
Qed.
Lemma moves_char c p p' : (c < 128)%N -> c <> 10%N -> c <> 13%N -> all_ascii (text p) -> char c p p' -> moves p p'.
Proof.
  intros C1 C2 C3 A [E S]. destruct p as [s st], p' as [s' st']. unfold moves, char, text, offset, line, column in *. cbn [fst snd] in *. subst.
  assert (V : valid (c :: s')) by (apply valid_text, A).
  assert (P : plainb c) by (unfold plainb; lia).
  pose proof (reads_char c s' st V P) as R. unfold supd in R.
  replace (mkStats _ _ _) with (supd st 1 0 1); [exact R|]. unfold supd. f_equal; cbn; lia.
Qed.

(** ** Rounds *)
Record cfg := mkCfg { g_place : place; g_ska : bool; g_key : option key_save; g_cxt : context }.
Definition scan_of (n : nat) (g : cfg) : scanner := mkSc n SStream (g_ska g) (snd (g_place g)) (g_key g) (g_cxt g).
Definition state_of (n : nat) (g : cfg) (q : tokens) : ms := mkMs (text (g_place g)) (scan_of n g) q.
Definition turn (o : flags) (g : cfg) (es : list entry) (g' : cfg) : Prop :=
  forall n q, scan_next_token o (state_of n g q) = (state_of n g' (pushes es q), Ok tt).
Inductive run (o : flags) : cfg -> list entry -> cfg -> Prop :=
| run_nil g : run o g [] g
| run_cons g es g1 fs g2 : turn o g es g1 -> run o g1 fs g2 -> run o g (es ++ fs) g2.
Lemma run_one o g es g' : turn o g es g' -> run o g es g'.
Proof. intros S. rewrite <- (app_nil_r es). eapply run_cons; [exact S|apply run_nil]. Qed.
Lemma run_app o g es g1 fs g2 : run o g es g1 -> run o g1 fs g2 -> run o g (es ++ fs) g2.
Proof. induction 1; intros R; [exact R|]. rewrite <- app_assoc. eapply run_cons; eauto. Qed.

(** White space, the saved key and the collections a token closes. *)
Definition expired (st : stats) (key : option key_save) : option key_save :=
  match key with
  | Some k =>
      if kp_allowed (k_possible k)
         && (Nat.ltb (slines (k_stats k)) (slines st)
             || (N.of_nat (sread (k_stats k)) + 1024 <? N.of_nat (sread st))%N)
      then Some (mkKey KNo (k_stats k)) else key
  | None => None
  end.
Definition easy (key : option key_save) : Prop :=
  match key with Some k => kp_required (k_possible k) = false | None => True end.
Lemma easy_expired st key : easy key -> easy (expired st key).
Proof. destruct key as [k|]; [|trivial]. unfold expired. destruct (_ && _); [reflexivity|trivial]. Qed.
Definition unrolled (c : context) (st : stats) : context * nat :=
  if is_block c then indent_decrement c (Some (scol st)) else (c, 0).
Definition dropped (c : context) (st : stats) (b : str) : context * nat :=
  match c_indents c with
  | e :: _ =>
      if Nat.ltb (ie_line e) (slines st) && ie_zero e && negb (ie_map e) && negb (at_is b 0 45)
      then pop_indent c else (c, 0)
  | [] => (c, 0)
  end.

Lemma enqueue_ends_pushes n mark : forall b sc q, enqueue_ends n mark (mkMs b sc q) = (mkMs b sc (pushes (ends n mark) q), Ok tt).
Proof.
  induction n as [|n IH]; intros b sc q; [reflexivity|]. cbn [enqueue_ends]. erewrite run_bind by reflexivity. cbn [m_buf m_sc m_q].
  rewrite IH. reflexivity.
Qed.
Lemma sadd_lines st d : slines (sadd st d) = slines st + slines d. Proof. reflexivity. Qed.

Lemma eats o p p0 n ska key c q : extendable o = false -> all_ascii (text p) -> apart p p0 ->
  sc_eat_whitespace o (state_of n (mkCfg p ska key c) q) =
    (state_of n (mkCfg p0 (ska || (line p <? line p0)) key c) q, Ok tt).
Proof.
  intros NE A [SK M]. pose proof (moves_ascii _ _ M A) as A0. pose proof (moves_soft _ _ M A) as SO.
  destruct p as [s st], p0 as [s0 st0]. unfold moves, state_of, scan_of, text, line in *. cbn [fst snd g_place g_ska g_key g_cxt] in *.
  destruct (eat_ws_complete o s s0 stats0 NE (valid_text _ A0) SK SO) as (d & EAT & RD).
  pose proof (reads_det _ _ _ _ _ M (reads_shift0 st _ _ _ RD)) as ->.
  unfold sc_eat_whitespace. erewrite run_bind by reflexivity. cbn [m_buf].
  erewrite run_bind; [|unfold mlift; rewrite EAT; reflexivity]. cbv beta iota. rewrite sadd_lines.
  assert (AD : forall sc, advance (consumed s s0) (mkMs s sc q) = (mkMs s0 sc q, Ok tt)).
  { intros sc. destruct SO as (a & -> & _). unfold advance, mbind, get_buf, mlift, put_buf. cbn [m_buf].
    unfold consumed. replace (List.length (a ++ s0) - List.length s0) with (List.length a) by (rewrite app_length; lia).
    rewrite skip_app by (apply valid_head, valid_text, A0). reflexivity. }
  destruct (Nat.eqb (slines d) 0) eqn:Z.
  - erewrite run_bind by reflexivity. erewrite run_bind by apply AD. unfold add_st, upd. cbn [m_buf m_sc m_q].
    unfold set_st. cbn [sc_offset sc_state sc_ska sc_st sc_key sc_cxt].
    assert (slines st <? slines st + slines d = false) as -> by lia. rewrite orb_false_r. reflexivity.
  - erewrite run_bind by reflexivity. cbn [m_buf m_sc m_q]. erewrite run_bind by apply AD. unfold add_st, upd. cbn [m_buf m_sc m_q].
    unfold set_st, set_ska. cbn [sc_offset sc_state sc_ska sc_st sc_key sc_cxt].
    assert (slines st <? slines st + slines d = true) as -> by lia. rewrite orb_true_r. reflexivity.
Qed.
(** A required key is fresh. *)
Definition timely (st : stats) (key : option key_save) : Prop :=
  match key with
  | Some k => kp_required (k_possible k) = true ->
      slines st <= slines (k_stats k) /\ (N.of_nat (sread st) <= N.of_nat (sread (k_stats k)) + 1024)%N
  | None => True
  end.
Lemma easy_timely st key : easy key -> timely st key.
Proof. destruct key as [k|]; [|trivial]. cbn. congruence. Qed.

Lemma settles o p p0 n ska key c q : extendable o = false -> all_ascii (text p) -> apart p p0 -> timely (snd p0) key ->
  scan_next_token o (state_of n (mkCfg p ska key c) q) =
    let c1 := unrolled c (snd p0) in
    let c2 := dropped (fst c1) (snd p0) (text p0) in
    (if is_empty (text p0) then fetch_stream_end else dispatch o)
      (state_of n (mkCfg p0 (ska || (line p <? line p0)) (expired (snd p0) key) (fst c2))
         (pushes (ends (snd c1 + snd c2) (offset p0)) q)).
Proof.
  intros NE A AP TI. cbv zeta. unfold scan_next_token. erewrite run_bind by reflexivity. cbn [m_sc state_of scan_of sc_state].
  erewrite run_bind by exact (eats o p p0 n ska key c q NE A AP).
  set (ska1 := ska || _).
  assert (E1 : expire_stale_saved_key (state_of n (mkCfg p0 ska1 key c) q) = (state_of n (mkCfg p0 ska1 (expired (snd p0) key) c) q, Ok tt)).
  { unfold expire_stale_saved_key. erewrite run_bind by reflexivity. cbn [m_sc state_of scan_of sc_key sc_st g_key g_place].
    destruct key as [k|]; [|reflexivity]. cbn [timely] in TI. unfold expired. destruct (_ && _) eqn:X; [|reflexivity].
    destruct (kp_required (k_possible k)) eqn:R; [|reflexivity]. exfalso. specialize (TI eq_refl). lia. }
  erewrite run_bind by exact E1. erewrite run_bind by reflexivity. cbn [m_sc state_of scan_of sc_st g_place].
  assert (E2 : unroll_indent (Some (scol (snd p0))) (state_of n (mkCfg p0 ska1 (expired (snd p0) key) c) q) =
    (state_of n (mkCfg p0 ska1 (expired (snd p0) key) (fst (unrolled c (snd p0)))) (pushes (ends (snd (unrolled c (snd p0))) (offset p0)) q), Ok tt)).
  { unfold unroll_indent, unrolled. erewrite run_bind by reflexivity. cbn [m_sc state_of scan_of sc_cxt sc_st g_cxt g_place].
    destruct (is_block c); [|reflexivity]. destruct (indent_decrement c (Some (scol (snd p0)))) as [c1 j] eqn:D. cbn [fst snd].
    erewrite run_bind by reflexivity. apply enqueue_ends_pushes. }
  erewrite run_bind by exact E2. set (c1 := fst (unrolled c (snd p0))). set (j1 := snd (unrolled c (snd p0))).
  set (q1 := pushes (ends j1 (offset p0)) q).
  assert (E3 : pop_zero_indent_sequence (state_of n (mkCfg p0 ska1 (expired (snd p0) key) c1) q1) =
    (state_of n (mkCfg p0 ska1 (expired (snd p0) key) (fst (dropped c1 (snd p0) (text p0)))) (pushes (ends (snd (dropped c1 (snd p0) (text p0))) (offset p0)) q1), Ok tt)).
  { unfold pop_zero_indent_sequence, dropped. erewrite run_bind by reflexivity. erewrite run_bind by reflexivity.
    cbn [m_sc m_buf state_of scan_of sc_cxt sc_st g_cxt g_place].
    destruct (c_indents c1) as [|e r] eqn:CI; [reflexivity|]. destruct (_ && _) eqn:X; [|reflexivity].
    destruct (pop_indent c1) as [c2 j2]. cbn [fst snd]. erewrite run_bind by reflexivity. apply enqueue_ends_pushes. }
  erewrite run_bind by exact E3. erewrite run_bind by reflexivity. erewrite run_bind by reflexivity.
  cbn [m_buf m_sc state_of scan_of sc_state g_place]. rewrite orb_false_r.
  unfold q1. rewrite <- pushes_app.
  assert (AE : ends j1 (offset p0) ++ ends (snd (dropped c1 (snd p0) (text p0))) (offset p0) = ends (j1 + snd (dropped c1 (snd p0) (text p0))) (offset p0)).
  { unfold ends. symmetry. apply repeat_app. }
  rewrite AE. destruct (is_empty (text p0)) eqn:EM; [reflexivity|].
  erewrite run_bind; [reflexivity|]. unfold mlift. rewrite cache_static by exact NE. reflexivity.
Qed.

(** ** Tokens *)
Lemma char_st c p p1 : char c p p1 -> snd p1 = supd (snd p) 1 0 1.
Proof. intros [_ ->]. unfold supd, offset, line, column. cbn. f_equal; lia. Qed.
Lemma char_adv c p p1 sc q : (c < 128)%N -> all_ascii (text p) -> char c p p1 ->
  sc_st sc = snd p ->
  advance_st 1 (mkMs (text p) sc q) = (mkMs (text p1) (set_st (snd p1) sc) q, Ok tt).
Proof.
  intros C A CH ES. rewrite (char_st _ _ _ CH). destruct CH as [E _]. unfold advance_st, advance, mbind, get_buf, mlift, put_buf, upd.
  cbn [m_buf m_sc m_q]. rewrite E. assert (V : valid (c :: text p1)) by (rewrite <- E; apply valid_text, A).
  destruct (valid_byte _ _ V C) as [B _]. unfold skip. rewrite B. cbn [skipn m_buf m_sc m_q]. rewrite ES. reflexivity.
Qed.
Lemma remove_easy b n ska st key c q : easy key ->
  remove_saved_key (mkMs b (mkSc n SStream ska st key c) q) = (mkMs b (mkSc n SStream ska st None c) q, Ok tt).
Proof.
  intros K. unfold remove_saved_key. erewrite run_bind by reflexivity. cbn [m_sc sc_key]. destruct key as [k|]; [|reflexivity].
  erewrite run_bind by reflexivity. cbn in K. rewrite K. reflexivity.
Qed.
(** The saved key after a token that may be a key. *)
Definition saved (ska : bool) (st : stats) (c : context) (key : option key_save) : option key_save :=
  if ska then Some (new_key st (is_block c && indent_eqb (cur_indent c) (scol st))) else key.
Lemma save_easy b n ska st key c q : (ska = true -> easy key) ->
  save_key false (mkMs b (mkSc n SStream ska st key c) q) = (mkMs b (mkSc n SStream ska st (saved ska st c key) c) q, Ok tt).
Proof.
  intros K. unfold save_key, saved. erewrite run_bind by reflexivity. cbn [m_sc sc_ska sc_cxt sc_st]. destruct ska; [|reflexivity].
  erewrite run_bind by (apply remove_easy, K; reflexivity). reflexivity.
Qed.

Ltac steps := repeat (erewrite run_bind by reflexivity; cbn [m_buf m_sc m_q sc_st sc_cxt sc_ska sc_key sc_state sc_offset]).

Section Tokens.
  Variable o : flags.
  Hypothesis (NE : extendable o = false) (NL : lazy_mode o = false).

  Lemma dispatch_open (map : bool) p p1 n ska key c q : all_ascii (text p) ->
    char (if map then 123 else 91)%N p p1 -> easy key ->
    dispatch o (state_of n (mkCfg p ska key c) q) =
      (state_of n (mkCfg p1 true (saved ska (snd p1) (flow_increment c) key) (flow_increment c))
         (q_push q (mkEntry (Tok (if map then TFlowMappingStart else TFlowSequenceStart)) (offset p1))), Ok tt).
  Proof.
    intros A CH K. unfold state_of, scan_of. cbn [g_place g_ska g_key g_cxt].
    assert (D : dispatch o (mkMs (text p) (mkSc n SStream ska (snd p) key c) q) =
      fetch_flow_collection_start map (mkMs (text p) (mkSc n SStream ska (snd p) key c) q)).
    { destruct CH as [E _]. rewrite E. destruct map; reflexivity. }
    rewrite D. unfold fetch_flow_collection_start. erewrite run_bind by reflexivity. cbn [m_buf m_sc m_q].
    erewrite run_bind by (eapply char_adv; [|exact A|exact CH|reflexivity]; destruct map; lia).
    erewrite run_bind by reflexivity. unfold set_st, set_cxt. cbn [m_buf m_sc m_q sc_offset sc_state sc_ska sc_st sc_key sc_cxt].
    erewrite run_bind by (apply save_easy; intros _; exact K). reflexivity.
  Qed.
  Lemma dispatch_close (map : bool) p p1 n ska key c c' q : all_ascii (text p) ->
    char (if map then 125 else 93)%N p p1 -> easy key -> flow_decrement c = Ok c' ->
    dispatch o (state_of n (mkCfg p ska key c) q) =
      (state_of n (mkCfg p1 false None c')
         (q_push q (mkEntry (Tok (if map then TFlowMappingEnd else TFlowSequenceEnd)) (offset p1))), Ok tt).
  Proof.
    intros A CH K F. unfold state_of, scan_of. cbn [g_place g_ska g_key g_cxt].
    assert (D : dispatch o (mkMs (text p) (mkSc n SStream ska (snd p) key c) q) =
      fetch_flow_collection_end map (mkMs (text p) (mkSc n SStream ska (snd p) key c) q)).
    { destruct CH as [E _]. rewrite E. destruct map; reflexivity. }
    rewrite D. unfold fetch_flow_collection_end. erewrite run_bind by (apply remove_easy, K).
    erewrite run_bind by reflexivity. cbn [m_sc sc_cxt]. erewrite run_bind by (unfold mlift; rewrite F; reflexivity).
    erewrite run_bind by reflexivity. erewrite run_bind by reflexivity. cbn [m_buf m_sc m_q].
    erewrite run_bind by (eapply char_adv; [|exact A|exact CH|reflexivity]; destruct map; lia). reflexivity.
  Qed.
  Lemma dispatch_comma p p1 n ska key c q : all_ascii (text p) -> char 44 p p1 -> easy key ->
    dispatch o (state_of n (mkCfg p ska key c) q) =
      (state_of n (mkCfg p1 true None c) (q_push q (mkEntry (Tok TFlowEntry) (offset p1))), Ok tt).
  Proof.
    intros A CH K. unfold state_of, scan_of. cbn [g_place g_ska g_key g_cxt].
    assert (D : dispatch o (mkMs (text p) (mkSc n SStream ska (snd p) key c) q) =
      fetch_flow_collection_entry (mkMs (text p) (mkSc n SStream ska (snd p) key c) q)).
    { destruct CH as [E _]. rewrite E. reflexivity. }
    rewrite D. unfold fetch_flow_collection_entry. erewrite run_bind by (apply remove_easy, K).
    erewrite run_bind by reflexivity. cbn [m_buf m_sc m_q].
    erewrite run_bind by (eapply char_adv; [|exact A|exact CH|reflexivity]; lia). reflexivity.
  Qed.

  Lemma rolls st map b sc q : is_block (sc_cxt sc) = true ->
    roll_indent (sread st) (slines st) (scol st) map (mkMs b sc q) =
      (mkMs b (set_cxt (fst (roll (sc_cxt sc) st map)) sc) (pushes (snd (roll (sc_cxt sc) st map)) q), Ok tt).
  Proof.
    intros B. unfold roll_indent, roll. erewrite run_bind by reflexivity. cbn [m_sc]. rewrite B.
    assert (SC : set_cxt (sc_cxt sc) sc = sc) by (destruct sc; reflexivity).
    destruct (indent_ltb _ _); [reflexivity|]. destruct (_ && _); [|cbn [fst snd]; rewrite SC; reflexivity].
    destruct (c_indents _) as [|e r]; [cbn [fst snd]; rewrite SC; reflexivity|]. destruct (ie_map e); [reflexivity|cbn [fst snd]; rewrite SC; reflexivity].
  Qed.
  Lemma loose_wsZ p : loose p -> is_wsZ (text p) = true.
  Proof. intros L. apply wsZ_iff. exact L. Qed.

  Lemma dispatch_dash p p1 n key c q : all_ascii (text p) -> dash p p1 -> easy key -> is_block c = true ->
    dispatch o (state_of n (mkCfg p true key c) q) =
      (state_of n (mkCfg p1 true None (refresh_line (fst (roll c (snd p) false)) (snd p)))
         (q_push (pushes (snd (roll c (snd p) false)) q) (mkEntry (Tok TBlockEntry) (offset p1))), Ok tt).
  Proof.
    intros A [CH LO] K B. apply loose_wsZ in LO. unfold state_of, scan_of. cbn [g_place g_ska g_key g_cxt].
    assert (D : dispatch o (mkMs (text p) (mkSc n SStream true (snd p) key c) q) =
      fetch_block_collection_entry (mkMs (text p) (mkSc n SStream true (snd p) key c) q)).
    { destruct CH as [E _]. rewrite E. unfold dispatch. steps. cbv zeta.
      assert (H : forall x, x <> 45%N -> at_is (45%N :: text p1) 0 x = false).
      { intros x X. unfold at_is. cbn [nth_error]. lia. }
      assert (S1 : starts_with (45%N :: text p1) (bytes "---") = false).
      { destruct (text p1) as [|x r] eqn:E1; [reflexivity|]. change (starts_with (45%N :: x :: r) (bytes "---")) with ((x =? 45)%N && starts_with r (bytes "-")). clear - LO.
        destruct (x =? 45)%N eqn:X; [|reflexivity]. assert (x = 45%N) as -> by (clear - X; unfold byte in *; lia). exfalso. revert LO. clear. unfold is_wsZ, is_blank, is_break, at_is. cbn. discriminate. }
      rewrite S1. rewrite (H 37%N), (H 123%N), (H 91%N), (H 125%N), (H 93%N), (H 44%N) by discriminate.
      change (starts_with (45%N :: text p1) (bytes "...")) with false. cbn [orb andb].
      unfold is_wsZ_at. cbn [skipn]. rewrite LO. reflexivity. }
    rewrite D. unfold fetch_block_collection_entry. steps. rewrite B. cbn [andb].
    erewrite run_bind by (apply rolls; exact B). cbn [sc_cxt].
    erewrite run_bind by reflexivity. cbn [m_buf m_sc m_q set_cxt sc_st sc_cxt sc_offset sc_state sc_ska sc_key].
    erewrite run_bind by (apply remove_easy, K). erewrite run_bind by reflexivity. cbn [m_buf m_sc m_q].
    erewrite run_bind by (eapply char_adv; [|exact A|exact CH|reflexivity]; lia). reflexivity.
  Qed.

  Lemma dispatch_value p p1 n ska k c q : all_ascii (text p) -> char 58 p p1 ->
    is_flow c = true \/ loose p1 -> kp_allowed (k_possible k) = true ->
    dispatch o (state_of n (mkCfg p ska (Some k) c) q) =
      (state_of n (mkCfg p1 false None (fst (roll c (k_stats k) true)))
         (pushes (snd (roll c (k_stats k) true) ++ [mkEntry (Tok TKey) (sread (k_stats k)); mkEntry (Tok TValue) (offset p1)]) q), Ok tt).
  Proof.
    intros A CH LO K. unfold state_of, scan_of. cbn [g_place g_ska g_key g_cxt].
    assert (D : dispatch o (mkMs (text p) (mkSc n SStream ska (snd p) (Some k) c) q) =
      fetch_value (mkMs (text p) (mkSc n SStream ska (snd p) (Some k) c) q)).
    { destruct CH as [E _]. rewrite E. unfold dispatch. steps. cbv zeta.
      assert (H : forall x, x <> 58%N -> at_is (58%N :: text p1) 0 x = false).
      { intros x X. unfold at_is. cbn [nth_error]. lia. }
      rewrite (H 37%N), (H 123%N), (H 91%N), (H 125%N), (H 93%N), (H 44%N), (H 45%N), (H 63%N) by discriminate.
      change (starts_with (58%N :: text p1) (bytes "...")) with false. change (starts_with (58%N :: text p1) (bytes "---")) with false. cbn [orb andb].
      assert (is_wsZ_at (58%N :: text p1) 1 || is_flow c = true) as ->.
      { unfold is_wsZ_at. cbn [skipn]. destruct LO as [-> |LO]; [apply orb_true_r|]. rewrite loose_wsZ by exact LO. reflexivity. }
      reflexivity. }
    rewrite D. unfold fetch_value. erewrite run_bind by reflexivity. cbn [m_sc]. erewrite run_bind by reflexivity.
    cbn [sc_key]. rewrite K. cbn [m_buf m_sc m_q].
    assert (R : roll_indent (sread (k_stats k)) (slines (k_stats k)) (scol (k_stats k)) true
                 (mkMs (text p) (mkSc n SStream ska (snd p) None c) q) =
               (mkMs (text p) (mkSc n SStream ska (snd p) None (fst (roll c (k_stats k) true))) (pushes (snd (roll c (k_stats k) true)) q), Ok tt)).
    { destruct (is_block c) eqn:B; [apply (rolls (k_stats k) true); exact B|].
      unfold roll, roll_indent. erewrite run_bind by reflexivity. cbn [m_sc sc_cxt]. rewrite B. reflexivity. }
    erewrite run_bind.
    2:{ change (set_key None (mkSc n SStream ska (snd p) (Some k) c)) with (mkSc n SStream ska (snd p) None c).
        erewrite run_bind by exact R. erewrite run_bind by reflexivity. reflexivity. }
    cbn [m_buf m_sc m_q]. erewrite run_bind by (eapply char_adv; [|exact A|exact CH|reflexivity]; lia).
    unfold enqueue_here. steps. rewrite pushes_app. reflexivity.
  Qed.

  Lemma goes_on_flow i j k s : goes_on true i k s -> goes_on true j k s.
  Proof. intros (A & B & C & D & _). repeat split; auto. discriminate. Qed.
  Lemma plain_flow i j k s v r : plain true i k s v r -> plain true j k s v r.
  Proof.
    induction 1 as [k s H|k n s k' s' W S G|k c s v r SV NW NC P IH|k g k' s v r G S GO P IH|k n s k' s' v r S GO P IH].
    - apply pl_end, H.
    - eapply pl_stop; eauto. intros G'. apply G. eapply goes_on_flow; eauto.
    - apply pl_char; auto.
    - eapply pl_blanks; eauto. eapply goes_on_flow; eauto.
    - eapply pl_fold; eauto. eapply goes_on_flow; eauto.
  Qed.

  Lemma dispatch_to_plain p n ska key c q : all_ascii (text p) -> plain_start (is_flow c) (text p) ->
    (is_flow c = true -> ~ begins 63 p /\ ~ begins 58 p) -> ~ (column p = 0 /\ document_marker (text p)) ->
    dispatch o (state_of n (mkCfg p ska key c) q) = fetch_plain_scalar o (state_of n (mkCfg p ska key c) q).
  Proof.
    intros A PS FL DM. unfold state_of, scan_of. cbn [g_place g_ska g_key g_cxt]. unfold begins, column in *. set (st := snd p) in *.
    pose proof PS as (x & r & E & NW & NI & SP). rewrite E in *. set (t := x :: r) in *.
    assert (H : forall y, In y [44; 91; 93; 123; 125; 35; 38; 42; 33; 124; 62; 39; 34; 37; 64; 96]%N -> at_is t 0 y = false).
    { intros y I. unfold at_is, t. cbn [nth_error]. destruct (x =? y)%N eqn:X; [|reflexivity].
      exfalso. apply NI. assert (x = y) as -> by lia. exact I. }
    assert (W1 : In x [45; 63; 58]%N -> is_wsZ_at t 1 = false).
    { intros I. destruct (SP I) as (S1 & S2 & _). unfold is_wsZ_at, t. cbn [skipn].
      destruct (is_wsZ r) eqn:X; [|reflexivity]. apply wsZ_iff in X. tauto. }
    assert (W2 : forall y, In y [45; 63; 58]%N -> at_is t 0 y = true -> is_wsZ_at t 1 = false).
    { intros y I X. unfold at_is, t in X. cbn [nth_error] in X. apply W1. assert (x = y) as -> by lia. exact I. }
    unfold dispatch. steps. cbv zeta.
    assert (D0 : (starts_with t (bytes "---") || starts_with t (bytes "...")) && (Nat.eqb (scol st) 0 && is_wsZ_at t 3) = false).
    { destruct (_ && _) eqn:X; [|reflexivity]. exfalso. apply DM.
      assert (Z : scol st = 0) by (destruct (scol st); [reflexivity|rewrite andb_false_r in X; discriminate]).
      split; [exact Z|]. apply document_marker_iff. unfold is_doc_indicator.
      rewrite Z in X. cbn [Nat.eqb andb] in X |- *. exact X. }
    rewrite D0. rewrite (H 37%N), (H 123%N), (H 91%N), (H 125%N), (H 93%N), (H 44%N), (H 38%N), (H 42%N), (H 33%N), (H 124%N), (H 62%N), (H 39%N), (H 34%N) by (cbn; tauto).
    cbn [orb andb].
    assert (F1 : at_is t 0 45 && is_wsZ_at t 1 = false).
    { destruct (at_is t 0 45) eqn:X; [|reflexivity]. apply (W2 45%N); [cbn; tauto|exact X]. }
    assert (BG : forall y, at_is t 0 y = true -> exists r0, t = y :: r0).
    { intros y X. unfold at_is, t in X. cbn [nth_error] in X. exists r. unfold t. f_equal. lia. }
    assert (F2 : at_is t 0 63 && (is_flow c || is_wsZ_at t 1) = false).
    { destruct (at_is t 0 63) eqn:X; [|reflexivity]. rewrite (W2 63%N) by (cbn; tauto). rewrite orb_false_r.
      destruct (is_flow c); [|reflexivity]. destruct (FL eq_refl) as [G _]. destruct (G (BG _ X)). }
    assert (F3 : at_is t 0 58 && (is_wsZ_at t 1 || is_flow c) = false).
    { destruct (at_is t 0 58) eqn:X; [|reflexivity]. rewrite (W2 58%N) by (cbn; tauto).
      destruct (is_flow c); [|reflexivity]. destruct (FL eq_refl) as [_ G]. destruct (G (BG _ X)). }
    rewrite F1, F2, F3.
    assert (IP : is_plain_scalar t c = true).
    { unfold is_plain_scalar. assert (is_wsZ t = false) as ->.
      { destruct (is_wsZ t) eqn:X; [|reflexivity]. apply wsZ_iff in X as [X|X]; [discriminate|tauto]. }
      unfold t. assert (NI' : forall y, In y [44; 91; 93; 123; 125; 35; 38; 42; 33; 124; 62; 39; 34; 37; 64; 96]%N -> (x =? y)%N = false).
      { intros y I. specialize (H y I). exact H. }
      rewrite (NI' 37%N), (NI' 38%N), (NI' 42%N), (NI' 33%N), (NI' 39%N), (NI' 34%N), (NI' 123%N), (NI' 91%N), (NI' 125%N), (NI' 44%N), (NI' 124%N), (NI' 62%N), (NI' 35%N), (NI' 64%N), (NI' 96%N), (NI' 93%N) by (cbn; tauto).
      cbn [orb andb].
      destruct (((x =? 58) || (x =? 63) || (x =? 45))%N) eqn:X; [|reflexivity]. cbn [andb].
      assert (is_plain_safe_c (x :: r) 1 (is_block c) = true) as ->; [|reflexivity].
      unfold is_plain_safe_c, is_block. destruct (is_flow c) eqn:FC; [|reflexivity]. cbn [negb orb].
      destruct SP as (S1 & _ & S3); [cbn; lia|]. unfold is_flow_ind_at. cbn [nth_error].
      destruct r as [|d r]; [congruence|]. cbn [nth_error]. specialize (S3 eq_refl d r eq_refl).
      unfold flow_indicators in S3. cbn [In] in S3. unfold is_flow_ind_byte. apply negb_true_iff.
      clear - S3. unfold byte in *. lia. }
    rewrite IP. reflexivity.
  Qed.

  Lemma adv_to p p' sc q : all_ascii (text p) -> moves p p' ->
    advance (List.length (text p) - List.length (text p')) (mkMs (text p) sc q) = (mkMs (text p') sc q, Ok tt).
  Proof.
    intros A M. pose proof (moves_ascii _ _ M A) as A'. destruct (moves_soft _ _ M A) as (a & E & _).
    unfold advance, mbind, get_buf, mlift, put_buf. cbn [m_buf]. rewrite E at 1 2.
    replace (List.length (a ++ text p') - List.length (text p')) with (List.length a) by (rewrite app_length; lia).
    rewrite skip_app by (apply valid_head, valid_text, A'). reflexivity.
  Qed.

  Lemma dispatch_scalar p v style p' i c : all_ascii (text p) ->
    scalar (is_flow c) i p v style p' -> (is_flow c = false -> i = indent_add (cur_indent c) 1) ->
    exists w, cow_str w = v /\ forall ska key n q, (ska = true -> easy key) ->
    dispatch o (state_of n (mkCfg p ska key c) q) =
      (state_of n (mkCfg p' false (saved ska (snd p) c key) c)
         (q_push q (mkEntry (Tok (TScalar w style)) (offset p'))), Ok tt).
  Proof.
    intros A SC IN. destruct SC as [single s v p' E Q M|v p' PS FL DM P M].
    - assert (V : valid (text p)) by (apply valid_text, A). rewrite E in V.
      assert (SO : soft (text p') s).
      { destruct (moves_soft _ _ M A) as (a & EA & AA). rewrite E in EA. destruct a as [|y a].
        - exfalso. cbn [app] in EA. destruct (quoted_suffix _ _ _ _ Q) as (b & EB).
          apply (f_equal (@List.length _)) in EA, EB. rewrite app_length in EB. cbn [List.length] in EA, EB. lia.
        - injection EA as _ EA. exists a. split; [exact EA|]. apply Forall_inv_tail in AA. exact AA. }
      assert (V' : valid (quote_of single :: s)) by exact V.
      assert (EQ : (if single then 39 else 34)%N = quote_of single) by (destruct single; reflexivity).
      destruct (eager_complete o stats0 single s v (text p') NE) as (w & d & EV & EW); [rewrite EQ; exact V'|exact Q|exact SO|eapply quoted_valid; exact Q|].
      rewrite EQ, <- E in EV.
      exists w. split; [exact EW|]. intros ska key n q K. unfold state_of, scan_of. cbn [g_place g_ska g_key g_cxt].
      assert (D : dispatch o (mkMs (text p) (mkSc n SStream ska (snd p) key c) q) = fetch_flow_scalar o (mkMs (text p) (mkSc n SStream ska (snd p) key c) q)).
      { rewrite E. destruct single; reflexivity. }
      rewrite D. unfold fetch_flow_scalar. steps.
      assert (B1 : at_is (text p) 0 39 || at_is (text p) 0 34 = true) by (rewrite E; destruct single; reflexivity).
      assert (B2 : at_is (text p) 0 39 = single) by (rewrite E; destruct single; reflexivity).
      rewrite B1, B2.
      assert (SF : scan_flow_scalar o (text p) stats0 single = Ok (Tok (TScalar w (style_of single)), List.length (text p) - List.length (text p'), d)).
      { unfold scan_flow_scalar. rewrite NL, EV. cbn [bind]. rewrite E. destruct single; reflexivity. }
      erewrite run_bind by (unfold mlift; rewrite SF; reflexivity). cbv beta iota.
      erewrite run_bind by (apply save_easy, K). erewrite run_bind by reflexivity. cbn [m_buf m_sc m_q].
      erewrite run_bind by (apply adv_to; assumption).
      assert (RD : reads (text p) stats0 (text p') d).
      { pose proof (scan_flow_leaf o (quote_of single) s stats0 single ltac:(destruct single; auto) V') as L.
        rewrite <- E, SF in L. cbn [leaf] in L. destruct L as (_ & L & _).
        destruct (moves_soft _ _ M A) as (a & EA & _).
        assert (SK : skipn (List.length (text p) - List.length (text p')) (text p) = text p').
        { rewrite EA. rewrite app_length. replace (_ - _) with (List.length a) by lia. rewrite skipn_app, skipn_all, Nat.sub_diag. reflexivity. }
        rewrite SK in L. exact L. }
      pose proof (reads_det _ _ _ _ _ M (reads_shift0 (snd p) _ _ _ RD)) as ES.
      unfold add_st. erewrite run_bind by reflexivity. unfold set_st, set_ska. cbn [m_buf m_sc m_q sc_offset sc_state sc_ska sc_st sc_key sc_cxt].
      unfold text, offset in *. rewrite <- ES. reflexivity.
    - pose proof (fun n ska key q => dispatch_to_plain p n ska key c q A PS FL DM) as DP.
      set (j := indent_add (cur_indent c) 1) in *.
      assert (P' : plain (is_flow c) j (column p) (text p) v (text p')).
      { destruct (is_flow c) eqn:FC; [eapply plain_flow; exact P|]. rewrite <- (IN eq_refl). exact P. }
      assert (NB : is_flow c = negb (is_block c)) by (unfold is_block; rewrite negb_involutive; reflexivity).
      rewrite NB in PS, P'.
      destruct (plain_complete o (text p) (snd p) j (is_block c) v (text p') NE A PS DM P') as (w & st' & EV & EW & SPL & RD & POS).
      exists w. split; [exact EW|]. intros ska key n0 q0 K. rewrite DP.
      unfold state_of, scan_of. cbn [g_place g_ska g_key g_cxt]. unfold fetch_plain_scalar. steps.
      assert (SP : scan_plain_scalar o (text p) (snd p) c = Ok (Tok (TScalar w Plain), List.length (text p) - List.length (text p'), st')).
      { unfold scan_plain_scalar. rewrite NL. fold j. rewrite EV. reflexivity. }
      erewrite run_bind by (unfold mlift; rewrite SP; reflexivity). cbv beta iota.
      erewrite run_bind by (apply save_easy, K). erewrite run_bind by reflexivity. cbn [m_buf m_sc m_q].
      erewrite run_bind by (apply adv_to; assumption).
      erewrite run_bind by reflexivity. unfold set_st, set_ska. cbn [m_buf m_sc m_q sc_offset sc_state sc_ska sc_st sc_key sc_cxt].
      pose proof (reads_det _ _ _ _ _ M RD) as ES. unfold text, offset in *. rewrite <- ES. reflexivity.
  Qed.
End Tokens.
