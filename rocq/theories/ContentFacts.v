(** What scalars, anchors and directives of token streams stand for. *)
From Verif Require Export StreamFacts QuotedFacts SpecContent.
From Verif Require Import Utf8Facts.
From Coq Require Import Lia ZifyBool ZifyN ZifyNat Permutation.
Open Scope nat_scope.

(** ** A text that is one quoted scalar *)
Lemma sadd_zero d : sadd stats0 d = d.
Proof. destruct d as [a b c]. destruct b; reflexivity. Qed.

Lemma boundary_end (t : str) : is_boundary t (List.length t) = true.
Proof.
  unfold is_boundary. rewrite (proj2 (nth_error_None t (List.length t)) (le_n _)), Nat.eqb_refl.
  destruct (List.length t); reflexivity.
Qed.
Lemma run_bind {A B} (m : M A) (k : A -> M B) x x' a : m x = (x', Ok a) -> mbind m k x = k a x'.
Proof. intros E. unfold mbind. rewrite E. reflexivity. Qed.

Lemma sadd_none d : sadd d stats0 = d.
Proof. destruct d as [a b c]. unfold sadd, supd. cbn. rewrite !Nat.add_0_r. reflexivity. Qed.

(** The end of the text, nothing being open. *)
Lemma end_round_ws o b d sc q : eat_whitespace o b stats0 true = Ok ([], d) -> is_boundary b (List.length b) = true ->
  sc_state sc = SStream ->
  match sc_key sc with Some k => kp_required (k_possible k) = false | None => True end ->
  c_indents (sc_cxt sc) = [] ->
  exists sc', sc_state sc' = SDone /\
    scan_next_token o (mkMs b sc q) =
      (mkMs [] sc' (q_push q (mkEntry (Tok TStreamEnd) (sread (sadd (sc_st sc) d)))), Ok tt).
Proof.
  intros EAT BD ST K I. destruct sc as [off state ska st0 key cxt]. cbn in ST, K, I. subst state.
  unfold scan_next_token. erewrite run_bind by reflexivity. cbn [m_sc sc_state sc_st].
  set (st := sadd st0 d).
  assert (EW : exists ska', sc_eat_whitespace o (mkMs b (mkSc off SStream ska st0 key cxt) q) =
    (mkMs [] (mkSc off SStream ska' st key cxt) q, Ok tt)).
  { unfold sc_eat_whitespace. erewrite run_bind by reflexivity. cbn [m_buf].
    erewrite run_bind; [|unfold mlift; rewrite EAT; reflexivity]. cbv beta iota.
    exists (if Nat.eqb (slines d) 0 then ska else true).
    unfold consumed. cbn [List.length]. rewrite Nat.sub_0_r.
    destruct (Nat.eqb (slines d) 0); (erewrite run_bind by reflexivity);
      unfold advance, mbind, get_buf, mlift, skip, put_buf; cbn [m_buf m_sc m_q]; rewrite BD, skipn_all; reflexivity. }
  destruct EW as (ska' & EW). erewrite run_bind; [|exact EW].
  assert (E : exists key', match key' with Some k => kp_required (k_possible k) = false | None => True end /\
    expire_stale_saved_key (mkMs [] (mkSc off SStream ska' st key cxt) q) = (mkMs [] (mkSc off SStream ska' st key' cxt) q, Ok tt)).
  { unfold expire_stale_saved_key. erewrite run_bind by reflexivity. cbn [m_sc sc_key sc_st].
    destruct key as [k|]; [|exists None; split; auto; reflexivity].
    destruct (kp_allowed (k_possible k) && _); [rewrite K|].
    - exists (Some (mkKey KNo (k_stats k))). split; reflexivity.
    - exists (Some k). split; [exact K|reflexivity]. }
  destruct E as (key' & K' & E). erewrite run_bind; [|exact E]. erewrite run_bind by reflexivity.
  assert (U : forall col, unroll_indent col (mkMs [] (mkSc off SStream ska' st key' cxt) q) =
    (mkMs [] (mkSc off SStream ska' st key' cxt) q, Ok tt)).
  { intros col. unfold unroll_indent. erewrite run_bind by reflexivity. cbn [m_sc sc_cxt].
    destruct (is_block cxt) eqn:BL; [|reflexivity]. unfold indent_decrement. rewrite BL, I. cbn [pop_indents].
    destruct cxt as [f i l a]. cbn in I |- *. subst l. destruct (indent_gt i col); reflexivity. }
  erewrite run_bind; [|apply U].
  erewrite run_bind by (unfold pop_zero_indent_sequence, mbind, get_sc, get_buf; cbn; rewrite I; reflexivity).
  erewrite run_bind by reflexivity. erewrite run_bind by reflexivity. cbn [m_buf is_empty orb].
  unfold fetch_stream_end. erewrite run_bind by reflexivity. erewrite run_bind by reflexivity. cbn [m_sc m_buf sc_state is_empty].
  erewrite run_bind; [|apply U].
  exists (mkSc off SDone ska' st None cxt). split; [reflexivity|].
  unfold remove_saved_key, mbind, get_sc, upd, enqueue_here, enqueue. cbn.
  destruct key' as [k|]; [rewrite K'|]; reflexivity.
Qed.
Lemma end_round o sc q : extendable o = false -> sc_state sc = SStream ->
  match sc_key sc with Some k => kp_required (k_possible k) = false | None => True end ->
  c_indents (sc_cxt sc) = [] ->
  exists sc', sc_state sc' = SDone /\
    scan_next_token o (mkMs [] sc q) = (mkMs [] sc' (q_push q (mkEntry (Tok TStreamEnd) (sread (sc_st sc)))), Ok tt).
Proof.
  intros NE ST K I. destruct (end_round_ws o [] stats0 sc q) as (sc' & A & B); auto.
  { unfold eat_whitespace. cbn. rewrite NE. reflexivity. }
  exists sc'. split; [exact A|]. rewrite B, sadd_none. reflexivity.
Qed.

Section Lone.
  Variables (o : flags) (single : bool) (s : str) (tok : token) (d : stats).
  Let t := quote_of single :: s.
  Hypothesis (NE : extendable o = false) (NL : lazy_mode o = false).
  Hypothesis X : scan_flow_scalar_eager o t stats0 single = Ok (tok, List.length t, d).

  Lemma lone_first : calls o t 1 = ([mkEntry (Tok TStreamStart) 0], mkSc 0 SStream true stats0 None cxt0, Ok tt).
  Proof.
    cbn [calls]. unfold batch, scan_tokens. replace (List.length t + 3) with (S (S (List.length t + 1))) by lia.
    cbn [scan_loop]. unfold t. cbn. rewrite Nat.sub_diag. reflexivity.
  Qed.

  Lemma lone_scalar : scan_next_token o (mkMs t (mkSc 0 SStream true stats0 None cxt0) q_new) =
    (mkMs [] (mkSc 0 SStream false d (Some (new_key stats0 false)) cxt0) (q_push q_new (mkEntry (Tok tok) (sread d))), Ok tt).
  Proof.
    assert (EW : sc_eat_whitespace o (mkMs t (mkSc 0 SStream true stats0 None cxt0) q_new) =
      (mkMs t (mkSc 0 SStream true stats0 None cxt0) q_new, Ok tt)).
    { unfold t. destruct single; unfold sc_eat_whitespace; cbn; rewrite Nat.sub_diag; reflexivity. }
    unfold scan_next_token, mbind, get_sc at 1. cbn [m_sc sc_state]. fold (@mbind unit unit). rewrite EW.
    cbn -[cache dispatch]. rewrite (cache_static o t 4 NE).
    assert (ED : dispatch o (mkMs t (mkSc 0 SStream true stats0 None cxt0) q_new) =
      fetch_flow_scalar o (mkMs t (mkSc 0 SStream true stats0 None cxt0) q_new)).
    { unfold t. destruct single; reflexivity. }
    unfold mlift. etransitivity; [exact ED|]. unfold fetch_flow_scalar, mbind at 1, get_buf. cbn [m_buf].
    assert (E : (at_is t 0 39 || at_is t 0 34 = true) /\ at_is t 0 39 = single) by (unfold t; destruct single; auto).
    destruct E as [-> ->]. unfold scan_flow_scalar. rewrite NL.
    unfold mbind at 1, mlift, Base.bind. rewrite X.
    cbn -[advance]. unfold advance, mbind, get_buf, mlift, skip. cbn [m_buf].
    change (S (List.length s)) with (List.length t). rewrite boundary_end, skipn_all. cbn.
    rewrite sadd_zero. reflexivity.
  Qed.

  Lemma lone_calls : exists sc, sc_state sc = SDone /\
    calls o t 2 = ([mkEntry (Tok TStreamStart) 0; mkEntry (Tok tok) (sread d); mkEntry (Tok TStreamEnd) (sread d)], sc, Ok tt).
  Proof.
    destruct (end_round o (mkSc (List.length t) SStream false d (Some (new_key stats0 false)) cxt0)
      (q_push q_new (mkEntry (Tok tok) (sread d))) NE eq_refl eq_refl eq_refl) as (sc & SD & EQ).
    exists (set_offset (List.length t) sc). split; [exact SD|].
    assert (step : forall k, calls o t (S k) = match calls o t k with
      | (h, sc, Ok _) => let '(es, sc', r) := batch o t sc in (match r with Ok _ => h ++ es | _ => h end, sc', r)
      | x => x end) by reflexivity.
    rewrite (step 1), lone_first. unfold batch, scan_tokens.
    replace (List.length t + 3) with (S (S (S (List.length t)))) by lia. cbn [scan_loop].
    assert (W : want_more (q_len (@q_new entry)) (mkSc 0 SStream true stats0 None cxt0) q_new = true) by reflexivity.
    rewrite W. unfold scan_round at 1. cbn [sc_offset].
    change (get_from t 0) with (Some t). cbv iota beta. rewrite lone_scalar. cbn [m_buf m_sc m_q].
    rewrite Nat.sub_0_r. set (sc1 := set_offset (List.length t) _).
    change sc1 with (mkSc (List.length t) SStream false d (Some (new_key stats0 false)) cxt0). clear sc1.
    unfold want_more at 1. cbn [sc_state sc_key]. rewrite orb_true_r.
    unfold scan_round at 1. cbn [sc_offset]. 
    assert (G : get_from t (List.length t) = Some []) by (unfold get_from; rewrite boundary_end, skipn_all; reflexivity).
    rewrite G, EQ.
    cbn [m_buf m_sc m_q]. rewrite Nat.sub_0_r. unfold want_more.
    assert (SD' : sc_state (set_offset (List.length t) sc) = SDone) by exact SD. rewrite SD'. reflexivity.
  Qed.
End Lone.

(** ** Streams of finished scans *)
Lemma pull_all : forall n q rest sc op ex i, holds entry q rest -> List.length rest = n ->
  exists r, consumes (mkReader sc q op ex i) (repeat Pull n) = (isort rest, Ok r).
Proof.
  induction n as [|n IH]; intros q rest sc op ex i H L; cbn [repeat consumes r_q].
  - destruct rest; [|discriminate]. eauto.
  - pose proof (holds_pop entry entry_cmp entry_order _ _ H) as P.
    destruct (q_pop entry_cmp q) as [[e|] q'].
    + destruct P as (rest' & TK & HQ). pose proof (takes_isort _ _ _ TK) as E.
      destruct (IH q' rest' sc op ex i HQ) as (r & E').
      { pose proof (f_equal (@List.length _) E) as E2. cbn in E2.
        rewrite !(Permutation_length (isort_perm _)) in E2. lia. }
      cbn [r_sc r_opts r_exhausted r_in]. rewrite E', E. eauto.
    + destruct P as [-> _]. discriminate.
Qed.

Lemma calls_taken t o k h sc : valid t -> calls (no_extend o) t k = (h, sc, Ok tt) ->
  exists r, consumes (open t o) (repeat Fill k ++ repeat Pull (List.length h)) = (isort h, Ok r).
Proof.
  intros V C. destruct (consumes (open t o) (repeat Fill k)) as [l x] eqn:E.
  assert (F : fills (repeat Fill k) = k) by (clear; induction k; cbn; auto).
  assert (L0 : l = []).
  { assert (H : forall r, fst (consumes r (repeat Fill k)) = []).
    { clear. induction k as [|k IH]; intros r; [reflexivity|]. cbn.
      destruct (reader_scan r) as [r' [|e| |]]; [apply IH|reflexivity..]. }
    rewrite <- (H (open t o)), E. reflexivity. }
  pose proof (consumes_history o t _ l x V E) as H. rewrite F, C in H.
  destruct H as ((rest' & H) & _ & r' & -> & ST & _).
  destruct ST as (_ & _ & _ & h' & rest & EC & HQ & HS). rewrite C in EC. injection EC as <- EC.
  destruct r' as [rsc rq ro rx ri]. cbn [r_q] in HQ. subst l. cbn [app] in HS.
  assert (LR : List.length rest = List.length h).
  { rewrite <- (Permutation_length (isort_perm h)), HS. symmetry. apply Permutation_length, isort_perm. }
  destruct (pull_all _ rq rest rsc ro rx ri HQ LR) as (r2 & E2).
  exists r2. rewrite consumes_app, E, E2, HS. reflexivity.
Qed.

Lemma calls_fail t o k h sc err s l x : valid t -> calls (no_extend o) t k = (h, sc, Err err) ->
  k <= fills s -> consumes (open t o) s = (l, x) -> x = Err (RScan err).
Proof.
  intros V C L E. pose proof (consumes_history o t s l x V E) as H.
  replace (fills s) with (k + (fills s - k)) in H by lia.
  rewrite calls_stop in H by (intros; rewrite C; discriminate). rewrite C in H. tauto.
Qed.

Lemma calls_yields t o k h sc : valid t -> calls (no_extend o) t k = (h, sc, Ok tt) -> sc_state sc = SDone ->
  yields t o (isort h).
Proof.
  intros V C D. assert (NE : extendable (no_extend o) = false) by reflexivity.
  assert (O : forall j, exists h' sc', calls (no_extend o) t j = (h', sc', Ok tt) /\ exists rest, isort h = isort h' ++ rest).
  { intros j. destruct (Nat.le_ge_cases j k) as [L|L].
    - destruct (calls (no_extend o) t j) as [[h' sc'] r'] eqn:E.
      assert (r' = Ok tt) as ->.
      { pose proof (calls_stop (no_extend o) t (k - j) j) as S. replace (j + (k - j)) with k in S by lia.
        rewrite C, E in S. destruct r' as [[]|e| |]; [reflexivity|..];
          specialize (S ltac:(intros; discriminate)); discriminate. }
      exists h', sc'. split; [reflexivity|].
      destruct (calls_prefix (no_extend o) t (k - j) NE V j) as (l & E'). replace (j + (k - j)) with k in E' by lia.
      rewrite C, E in E'. eauto.
    - exists h, sc. split; [|exists []; rewrite app_nil_r; reflexivity].
      replace j with (k + (j - k)) by lia. rewrite calls_done; auto; rewrite C; auto. }
  split.
  - intros s l' x E. pose proof (consumes_history o t s l' x V E) as H.
    destruct (O (fills s)) as (h' & sc' & E' & rest & P). rewrite E' in H.
    destruct H as ((rest' & H) & _ & r' & X & _). split; [eauto|]. rewrite P, H, <- app_assoc. eauto.
  - destruct (calls_taken t o k h sc V C) as (r & E). eauto.
Qed.

(** ** Quoted scalars of streams *)
Lemma valid_text s : Forall (fun c => c < 128)%N s -> valid s.
Proof. intros A. apply valid_ascii, A. Qed.

Lemma gap_blanks n l s r l' : gap l n s r l' -> n = 0 -> exists g, s = g ++ r /\ Forall blank g.
Proof.
  induction 1 as [l s W|l n c s r l' B G IH|l n s r l' B G IH]; intros E.
  - exists []. auto.
  - destruct (IH E) as (g & -> & F). exists (c :: g). auto.
  - discriminate.
Qed.
Lemma valid_encode c : scalar_value c -> valid (encode c).
Proof.
  intros S. apply valid_iff. exists [c]. split; [constructor; auto|]. cbn [flat_map]. rewrite app_nil_r. reflexivity.
Qed.
Lemma repeat_valid c n : (c < 128)%N -> valid (repeat c n).
Proof. intros H. apply valid_text. induction n; cbn; auto. Qed.
Lemma quoted_valid single s v r : quoted single s v r -> valid v.
Proof.
  induction 1 as [r C|c s v r C W Q ES H IH|s v r S1 H IH|e c s v r S1 D SC H IH|g s v r G0 G H IH
    |n s s' v r l G D H IH|n s s' v r l S1 B G D H IH].
  - reflexivity.
  - apply valid_app; [|exact IH]. exact (valid_encode c C).
  - apply (valid_app [39%N]); [reflexivity|exact IH].
  - apply valid_app; [|exact IH]. exact (valid_encode c SC).
  - apply valid_app; [|exact IH]. apply gap_blanks in G as (g' & E & F); [|reflexivity].
    apply app_inv_tail in E as ->. apply valid_text. eapply Forall_impl; [|exact F]. unfold blank. intros; lia.
  - apply valid_app; [|exact IH]. destruct n; [reflexivity|]. apply repeat_valid. lia.
  - apply valid_app; [|exact IH]. apply repeat_valid. lia.
Qed.

Lemma soft_nil s : all_ascii s -> soft [] s.
Proof. intros A. exists s. rewrite app_nil_r. auto. Qed.

Lemma quoted_alone (single : bool) s v o : lazy_mode o = false -> all_ascii s -> quoted single s v [] ->
  exists c, cow_str c = v /\
    yields (quote_of single :: s) o (lone (TScalar c (style_of single)) (S (List.length s))).
Proof.
  intros NL A Q. set (t := quote_of single :: s).
  assert (V : valid t).
  { apply valid_text. constructor; [destruct single; reflexivity|exact A]. }
  pose proof (quoted_valid _ _ _ _ Q) as VV.
  destruct (eager_complete (no_extend o) stats0 single s v [] eq_refl V Q (soft_nil _ A) VV) as (c & d & E & EV).
  exists c. split; [exact EV|]. cbn [List.length] in E. rewrite Nat.sub_0_r in E.
  assert (SD : sread d = S (List.length s)).
  { assert (QQ : quote_of single = 39%N \/ quote_of single = 34%N) by (destruct single; auto).
    pose proof (scan_flow_leaf (no_extend o) (quote_of single) s stats0 single QQ V) as L.
    unfold scan_flow_scalar in L. change (lazy_mode (no_extend o)) with (lazy_mode o) in L.
    rewrite NL in L. change (if single then 39%N else 34%N) with (quote_of single) in E. rewrite E in L. cbn [Base.bind leaf] in L.
    destruct L as (_ & R & _). apply reads_len in R. cbn [sread stats0] in R.
    rewrite skipn_length in R. cbn [List.length] in R. lia. }
  destruct (lone_calls (no_extend o) single s _ d eq_refl NL E) as (sc & D & C).
  pose proof (calls_yields t o 2 _ sc V C D) as Y. rewrite SD in Y.
  cbn in Y. rewrite Nat.leb_refl in Y. exact Y.
Qed.

(** ** Quoted scalars anywhere in a stream *)
Lemma plain_style o b st c tok n st' : scan_plain_scalar o b st c = Ok (Tok tok, n, st') ->
  exists x, tok = TScalar x Plain.
Proof.
  unfold scan_plain_scalar. destruct (lazy_mode o); intros X; apply bind_inv in X as ([[d n'] s'] & E & X); [discriminate|].
  injection X as <- _ _. unfold scan_plain_scalar_eager in E. apply bind_inv in E as (u & _ & E).
  destruct (_ && _) in E; [discriminate|]. apply bind_inv in E as (p & _ & E). apply bind_inv in E as (scr & _ & E).
  apply bind_inv in E as (x & _ & E). injection E as <- _ _. eauto.
Qed.
Lemma block_style o b st c (fold : bool) tok n st' : scan_block_scalar o b st c fold = Ok (Tok tok, n, st') ->
  exists x, tok = TScalar x (if fold then Folded else Literal).
Proof.
  unfold scan_block_scalar. destruct (lazy_mode o); intros X; apply bind_inv in X as ([[d n'] s'] & E & X); [discriminate|].
  injection X as <- _ _. unfold scan_block_scalar_eager in E.
  apply bind_inv in E as ([[[ch ex] bu] lo] & _ & E). apply bind_inv in E as ([[[[i bu'] lo'] li] bo] & _ & E).
  destruct bo; apply bind_inv in E as (p & _ & E); apply bind_inv in E as (x & _ & E); injection E as <- _ _; eauto.
Qed.
Lemma flow_style o b st (single : bool) tok n st' : scan_flow_scalar o b st single = Ok (Tok tok, n, st') ->
  lazy_mode o = false /\ scan_flow_scalar_eager o b st single = Ok (tok, n, st') /\ exists x, tok = TScalar x (style_of single).
Proof.
  unfold scan_flow_scalar. destruct (lazy_mode o); intros X; apply bind_inv in X as ([[d n'] s'] & E & X); [discriminate|].
  injection X as <- <- <-. split; [reflexivity|]. split; [exact E|]. unfold scan_flow_scalar_eager in E.
  apply bind_inv in E as (u & _ & E). apply bind_inv in E as (u' & _ & E). apply bind_inv in E as (u2 & _ & E).
  apply bind_inv in E as (x & _ & E). apply bind_inv in E as (u3 & _ & E). apply bind_inv in E as (u4 & _ & E).
  injection E as <- _ _. eauto.
Qed.

Lemma no_wide_skipn t n : no_wide_escape t -> no_wide_escape (skipn n t).
Proof.
  intros H a b E. apply (H (firstn n t ++ a)). rewrite <- app_assoc, <- E. symmetry. apply firstn_skipn.
Qed.

Lemma stream_quoted t o s l x e c single : valid t ->
  consumes (open t o) s = (l, x) -> In e l -> e_wrap e = Tok (TScalar c (style_of single)) ->
  exists n body r, skipn n t = quote_of single :: body /\
    ((single = false -> no_wide_escape t) -> quoted single body (cow_str c) r) /\
    (exactly t -> r = skipn (e_read e) t) /\
    (forall y, c = Borrowed y -> body = y ++ quote_of single :: r).
Proof.
  intros V C IN EW. destruct (stream_from t o V s l x e C IN) as (n & st & cx & k & st' & B & CT & ER & POS).
  { unfold e_marker. rewrite EW. destruct single; reflexivity. }
  rewrite EW in CT.
  assert (K : exists d, at_is (skipn n t) 0 (quote_of single) = true /\
    lazy_mode o = false /\
    scan_flow_scalar_eager (no_extend o) (skipn n t) stats0 single = Ok (TScalar c (style_of single), k, d)).
  { remember (Tok (TScalar c (style_of single))) as m eqn:EM.
    destruct CT as [A|start A1 A2 A3|dk tok buf k d A1 A2 A3 D A4|tok k d A D|alias tok buf k d A D A2
      |sg tok k d A D|tok k st' A D|fd tok k st' A1 A2 D].
    - discriminate.
    - destruct start; discriminate.
    - destruct (ScanFacts.directive_kind _ _ _ _ _ _ _ D) as [(? & ? & ->)|(? & ? & ->)]; discriminate.
    - destruct (tag_kind _ _ _ _ _ _ D) as (? & ? & ->). discriminate.
    - destruct (anchor_kind _ _ _ _ _ _ _ D) as (? & ->). destruct alias; discriminate.
    - subst tok. destruct (flow_style _ _ _ _ _ _ _ D) as (L & E & y & E').
      assert (sg = single) as -> by (destruct sg, single; try reflexivity; discriminate E').
      exists d. split; [exact A|]. split; [exact L|exact E].
    - subst tok. destruct (plain_style _ _ _ _ _ _ _ D) as (y & E). destruct single; discriminate.
    - subst tok. destruct (block_style _ _ _ _ _ _ _ _ D) as (y & E). destruct single, fd; discriminate. }
  destruct K as (d & A & NL & E).
  assert (VS : valid (skipn n t)) by (apply valid_skipn; assumption).
  destruct (eager_sound _ _ _ _ _ _ _ VS A E) as (body & c' & r & EB & ET & VC & Q & R & LE & BR).
  assert (c' = c) as ->. { destruct single; injection ET as ->; reflexivity. }
  exists n, body, r. split; [exact EB|]. split; [intros NW; apply Q; intros S1; apply no_wide_skipn, NW, S1|]. split.
  - intros EX. destruct (POS EX) as [_ R2]. specialize (R2 NL). apply exact_suffix in R2.
    rewrite ER, <- R2, <- R. rewrite skipn_skipn. reflexivity.
  - intros y ->. pose proof (BR y eq_refl) as E2. rewrite EB in E2. injection E2 as ->. reflexivity.
Qed.

(** ** Writing in single quotes *)
Lemma white_none c s : (c <> 32 /\ c <> 9 /\ c <> 10 /\ c <> 13)%N -> (c < 128)%N -> ~ white (c :: s).
Proof.
  intros (A & B & C & D) L [(c' & r & E & [-> | ->])|W].
  - injection E as -> _. lia.
  - injection E as -> _. lia.
  - apply W. unfold break_len. replace (c =? 10)%N with false by lia. replace (c =? 13)%N with false by lia.
    destruct s as [|b r]; [reflexivity|]. replace (c =? 194)%N with false by lia. cbn [andb].
    destruct r; [reflexivity|]. replace (c =? 226)%N with false by lia. reflexivity.
Qed.
Lemma encode_ascii c : (c < 128)%N -> encode c = [c].
Proof. intros H. unfold encode. replace (c <? 128)%N with true by lia. reflexivity. Qed.
Lemma quoted_single v : all_ascii v -> no_white v ->
  quoted true (flat_map (fun c => if (c =? 39)%N then [39; 39]%N else [c]) v ++ [39%N]) v [].
Proof.
  induction v as [|c v IH]; intros A W.
  - apply (q_close true []). intros (_ & r & E). discriminate.
  - pose proof (Forall_inv A) as AC. pose proof (Forall_inv W) as WC. cbn beta in AC, WC.
    specialize (IH (Forall_inv_tail A) (Forall_inv_tail W)). cbn [flat_map].
    destruct (c =? 39)%N eqn:E.
    + assert (c = 39%N) as -> by lia. apply q_pair; [reflexivity|exact IH].
    + pose proof (q_char true c (flat_map (fun c => if (c =? 39)%N then [39; 39]%N else [c]) v ++ [39%N]) v []) as Q.
      rewrite (encode_ascii c AC) in Q. apply Q; auto.
      * unfold scalar_value. lia.
      * apply white_none; assumption.
      * lia.
      * discriminate.
Qed.

(** ** Lines of quoted scalars *)
Lemma quoted_word single w s v r : all_ascii w -> no_white w ->
  Forall (fun c => c <> 39 /\ c <> 34 /\ c <> 92)%N w -> quoted single s v r -> quoted single (w ++ s) (w ++ v) r.
Proof.
  intros A W Q H. induction w as [|c w IH]; [exact H|].
  pose proof (Forall_inv A) as AC. pose proof (Forall_inv W) as WC. pose proof (Forall_inv Q) as QC. cbn beta in *.
  specialize (IH (Forall_inv_tail A) (Forall_inv_tail W) (Forall_inv_tail Q)).
  pose proof (q_char single c (w ++ s) (w ++ v) r) as K. rewrite (encode_ascii c AC) in K. apply K; auto.
  - unfold scalar_value. lia.
  - apply white_none; assumption.
  - destruct single; lia.
  - lia.
Qed.

(** What follows a word or a gap. *)
Definition solid (s : str) : Prop := exists c r, s = c :: r /\ (c < 128)%N /\ (c <> 32 /\ c <> 9 /\ c <> 10 /\ c <> 13)%N.
Lemma pieces_gap g : forall l s, solid s -> exists l', gap l (breaks g) (spelled g ++ s) s l'.
Proof.
  induction g as [|p g IH]; intros l s S; cbn [spelled breaks flat_map filter app].
  - exists l. apply gap_end. destruct S as (c & r & -> & A & B). apply white_none; assumption.
  - rewrite <- app_assoc. fold (spelled g) (breaks g). destruct p; cbn [spell app List.length].
    + destruct (IH false s S) as (l' & G). exists l'. apply gap_blank; [left; reflexivity|exact G].
    + destruct (IH false s S) as (l' & G). exists l'. apply gap_blank; [right; reflexivity|exact G].
    + destruct (IH true s S) as (l' & G). exists l'. apply gap_break; [discriminate|exact G].
    + destruct (IH true s S) as (l' & G). exists l'. apply gap_break; [discriminate|exact G].
Qed.
Lemma pieces_blank g s : solid s -> breaks g = 0 -> gap false 0 (spelled g ++ s) s false.
Proof.
  intros S. induction g as [|p g IH]; cbn [spelled breaks flat_map filter app].
  - intros _. apply gap_end. destruct S as (c & r & -> & A & B). apply white_none; assumption.
  - rewrite <- app_assoc. fold (spelled g) (breaks g). intros E.
    destruct p; cbn [spell app List.length] in *; try discriminate.
    + apply gap_blank; [left; reflexivity|auto].
    + apply gap_blank; [right; reflexivity|auto].
Qed.

Lemma word_solid w s : word w -> solid (w ++ s).
Proof.
  intros (NE & A & W & _). destruct w as [|c w]; [congruence|]. exists c, (w ++ s).
  split; [reflexivity|]. split; [exact (Forall_inv A)|exact (Forall_inv W)].
Qed.
Lemma word_no_marker w s : word w -> (forall r, s <> 45%N :: r /\ s <> 46%N :: r) -> ~ document_marker (w ++ s).
Proof.
  intros (NE & _ & _ & _ & M) H (r & [E|E] & _); cbn in E;
    (destruct w as [|a [|b [|c w]]]; [congruence|..]); cbn in E.
  - injection E as -> E. destruct (H (45 :: r)%N) as [X _]. congruence.
  - injection E as -> -> E. destruct (H r) as [X _]. congruence.
  - injection E as -> -> -> E. destruct (M w) as [X _]. apply X. reflexivity.
  - injection E as -> E. destruct (H (46 :: r)%N) as [_ X]. congruence.
  - injection E as -> -> E. destruct (H r) as [_ X]. congruence.
  - injection E as -> -> -> E. destruct (M w) as [_ X]. apply X. reflexivity.
Qed.

Lemma spelled_first g s : g <> [] -> forall r, spelled g ++ s <> 45%N :: r /\ spelled g ++ s <> 46%N :: r.
Proof. destruct g as [|[] g]; [congruence|..]; split; discriminate. Qed.

Lemma quoted_lines single l : Forall (fun gw => fst gw <> [] /\ word (snd gw)) l ->
  quoted single (flat_map (fun gw => spelled (fst gw) ++ snd gw) l ++ [quote_of single])
    (flat_map (fun gw => between (fst gw) ++ snd gw) l) [] /\
  forall r, flat_map (fun gw => spelled (fst gw) ++ snd gw) l ++ [quote_of single] <> 45%N :: r /\
            flat_map (fun gw => spelled (fst gw) ++ snd gw) l ++ [quote_of single] <> 46%N :: r.
Proof.
  induction l as [|[g w] l IH]; intros F; cbn [flat_map fst snd app].
  - split; [apply (q_close single []); intros (_ & r & E); discriminate|]. destruct single; split; discriminate.
  - pose proof (Forall_inv F) as [GN W]. cbn [fst snd] in GN, W.
    destruct (IH (Forall_inv_tail F)) as [Q N1]. clear IH.
    set (rest := flat_map (fun gw => spelled (fst gw) ++ snd gw) l) in *.
    rewrite <- !app_assoc. split; [|intros r; apply spelled_first, GN].
    assert (QW : quoted single (w ++ rest ++ [quote_of single]) (w ++ flat_map (fun gw => between (fst gw) ++ snd gw) l) []).
    { destruct W as (_ & A & NW & NQ & _). apply quoted_word; assumption. }
    pose proof (word_solid w (rest ++ [quote_of single]) W) as SO.
    unfold between at 1. destruct (breaks g =? 0) eqn:B.
    + apply q_blanks; [|apply pieces_blank; [exact SO|lia]|exact QW]. destruct g as [|[] g]; [congruence|..]; discriminate.
    + destruct (pieces_gap g false _ SO) as (l' & G). destruct (breaks g) as [|n]; [discriminate|].
      apply (q_fold single n _ _ _ _ _ G); [|exact QW]. intros _. apply word_no_marker; [exact W|exact N1].
Qed.

Lemma spelled_ascii g : all_ascii (spelled g).
Proof. induction g as [|[] g IH]; [constructor|..]; repeat (constructor; [reflexivity|]); exact IH. Qed.

Lemma folding single w0 l o : lazy_mode o = false -> w0 = [] \/ word w0 ->
  Forall (fun gw => fst gw <> [] /\ word (snd gw)) l ->
  exists c, cow_str c = meaning w0 l /\
    yields (quote_of single :: source w0 l ++ [quote_of single]) o
      (lone (TScalar c (style_of single)) (List.length (source w0 l) + 2)).
Proof.
  intros NL W F. destruct (quoted_lines single l F) as [Q _].
  assert (Q' : quoted single (source w0 l ++ [quote_of single]) (meaning w0 l) []).
  { unfold source, meaning. rewrite <- app_assoc. destruct W as [-> |(_ & A & NW & NQ & _)]; [exact Q|]. apply quoted_word; assumption. }
  assert (AS : all_ascii (source w0 l ++ [quote_of single])).
  { unfold all_ascii, source. rewrite !Forall_app. split; [split|].
    + destruct W as [-> |(_ & A & _)]; [constructor|exact A].
    + clear Q Q'. induction F as [|[g w] l (G & _ & A & _) F IH]; [constructor|]. cbn. rewrite !Forall_app.
      split; [split; [apply spelled_ascii|exact A]|exact IH].
    + constructor; [destruct single; reflexivity|constructor]. }
  destruct (quoted_alone single _ _ o NL AS Q') as (c & E & Y).
  exists c. split; [exact E|]. rewrite app_length in Y. cbn in Y.
  replace (List.length (source w0 l) + 2) with (S (List.length (source w0 l) + 1)) by lia. exact Y.
Qed.

(** ** Escapes *)
Lemma quoted_escapes es : Forall (fun ec => denotes (fst ec) (snd ec) /\ scalar_value (snd ec)) es ->
  quoted false (flat_map fst es ++ [34%N]) (flat_map (fun ec => encode (snd ec)) es) [] /\ all_ascii (flat_map fst es).
Proof.
  induction es as [|[e c] es IH]; intros F; cbn [flat_map fst snd].
  - split; [apply (q_close false []); intros (E & _); discriminate|constructor].
  - pose proof (Forall_inv F) as [D S]. cbn [fst snd] in D, S. destruct (IH (Forall_inv_tail F)) as [Q A].
    destruct (denotes_cons _ _ D) as (x & t & E & _ & _ & AE & _). split.
    + rewrite <- app_assoc. apply q_escape; auto.
    + apply Forall_app. auto.
Qed.
Lemma escapes es o : lazy_mode o = false ->
  Forall (fun ec => denotes (fst ec) (snd ec) /\ scalar_value (snd ec)) es ->
  exists c, cow_str c = flat_map (fun ec => encode (snd ec)) es /\
    yields (34%N :: flat_map fst es ++ [34%N]) o
      (lone (TScalar c DoubleQuote) (List.length (flat_map fst es) + 2)).
Proof.
  intros NL F. destruct (quoted_escapes es F) as [Q A].
  assert (AS : all_ascii (flat_map fst es ++ [34%N])).
  { apply Forall_app. split; [exact A|]. constructor; [reflexivity|constructor]. }
  destruct (quoted_alone false _ _ o NL AS Q) as (c & E & Y).
  exists c. split; [exact E|]. rewrite app_length in Y. cbn in Y.
  replace (List.length (flat_map fst es) + 2) with (S (List.length (flat_map fst es) + 1)) by lia. exact Y.
Qed.

Lemma single_quotes v o : lazy_mode o = false -> all_ascii v -> no_white v ->
  exists c, cow_str c = v /\
    yields (in_single_quotes v) o (lone (TScalar c SingleQuote) (List.length (in_single_quotes v))).
Proof.
  intros NL A W. pose proof (quoted_single v A W) as Q.
  assert (AS : all_ascii (flat_map (fun c => if (c =? 39)%N then [39; 39]%N else [c]) v ++ [39%N])).
  { apply Forall_app. split; [|constructor; [reflexivity|constructor]].
    apply Forall_flat_map. eapply Forall_impl; [|exact A]. cbn beta. intros c H.
    destruct (c =? 39)%N; repeat constructor; lia. }
  exact (quoted_alone true _ _ o NL AS Q).
Qed.

(** ** Refutations *)
Lemma accent_panics : forall o, lazy_mode o = false ->
  snd (consumes (open (in_single_quotes [195; 169]%N) o) [Fill; Fill]) = Panic.
Proof. intros [[] []] H; try discriminate; vm_compute; reflexivity. Qed.
Lemma surrogate_panics : forall o, lazy_mode o = false ->
  snd (consumes (open (bytes """\uD800""") o) [Fill; Fill]) = Panic.
Proof. intros [[] []] H; try discriminate; vm_compute; reflexivity. Qed.
Lemma wide_escape_wrong : forall o, lazy_mode o = false -> exists r,
  consumes (open (bytes """\U04010000""") o) [Fill; Fill; Pull; Pull; Pull] =
    (lone (TScalar (Owned (encode 65536)) DoubleQuote) 12, Ok r).
Proof. intros [[] []] H; try discriminate; eexists; vm_compute; reflexivity. Qed.

Lemma single_quoted_streams (t : str) (o : flags) : well_formed t ->
  forall s l x e c, consumes (open t o) s = (l, x) -> In e l -> e_wrap e = Tok (TScalar c SingleQuote) ->
    exists n body r, skipn n t = 39%N :: body /\ quoted true body (cow_str c) r /\
      (no_verbatim_tag t -> r = skipn (e_read e) t).
Proof.
  intros W s l x e c C IN E.
  destruct (stream_quoted t o s l x e c true) as (n & body & r & A & Q & P & _); auto.
  - apply valid_iff, W.
  - exists n, body, r. split; [exact A|]. split; [apply Q; discriminate|]. intros NV. apply P, no_verbatim_exactly, NV.
Qed.
Lemma double_quoted_streams (t : str) (o : flags) : well_formed t -> no_wide_escape t ->
  forall s l x e c, consumes (open t o) s = (l, x) -> In e l -> e_wrap e = Tok (TScalar c DoubleQuote) ->
    exists n body r, skipn n t = 34%N :: body /\ quoted false body (cow_str c) r /\
      (no_verbatim_tag t -> r = skipn (e_read e) t).
Proof.
  intros W NW s l x e c C IN E.
  destruct (stream_quoted t o s l x e c false) as (n & body & r & A & Q & P & _); auto.
  - apply valid_iff, W.
  - exists n, body, r. split; [exact A|]. split; [apply Q; auto|]. intros NV. apply P, no_verbatim_exactly, NV.
Qed.

Lemma hex_text ds : forallb (fun h => ((48 <=? h) && (h <=? 57) || (65 <=? h) && (h <=? 70) || (97 <=? h) && (h <=? 102))%N) ds = true ->
  Forall hex_digit ds.
Proof. intros H. rewrite forallb_forall in H. apply Forall_forall. intros x I. specialize (H x I). unfold hex_digit. lia. Qed.
Lemma wide_escape : exists e v, denotes e v /\ ~ scalar_value v /\
    forall o, lazy_mode o = false -> exists r,
      consumes (open (34%N :: e ++ [34%N]) o) [Fill; Fill; Pull; Pull; Pull] =
        (lone (TScalar (Owned (encode 65536)) DoubleQuote) 12, Ok r).
Proof.
  exists (bytes "\U04010000"), (hex_number (bytes "04010000")).
  split; [apply (den_number 85%N 8); [right; right; left; reflexivity|reflexivity|apply hex_text; reflexivity]|].
  split; [intros [A _]; apply A; vm_compute; reflexivity|]. exact wide_escape_wrong.
Qed.
Lemma surrogate : exists e v, denotes e v /\ ~ scalar_value v /\
    forall o, lazy_mode o = false -> snd (consumes (open (34%N :: e ++ [34%N]) o) [Fill; Fill]) = Panic.
Proof.
  exists (bytes "\uD800"), (hex_number (bytes "D800")).
  split; [apply (den_number 117%N 4); [right; left; reflexivity|reflexivity|apply hex_text; reflexivity]|].
  split; [intros [_ A]; apply A; vm_compute; split; discriminate|]. exact surrogate_panics.
Qed.
Lemma accent : exists v, well_formed v /\ no_white v /\
    forall o, lazy_mode o = false -> snd (consumes (open (in_single_quotes v) o) [Fill; Fill]) = Panic.
Proof.
  exists [195; 169]%N. split; [apply valid_iff; reflexivity|]. split; [|exact accent_panics].
  constructor; [lia|]. constructor; [lia|]. constructor.
Qed.
