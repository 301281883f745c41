(** Anchors, aliases and version directives of streams. *)
From Verif Require Export ContentFacts SpecNames.
From Verif Require Import Utf8Facts UriFacts.
From Verif Require BasicFacts.
From Coq Require Import Lia ZifyBool ZifyN ZifyNat.
Open Scope nat_scope.

(** ** Runs of characters *)
Lemma take_while_spec o f s n : take_while o f s = Ok n ->
  exists a r, s = a ++ r /\ List.length a = n /\ Forall (fun c => f c = true) a /\ ends (fun c => f c = true) r.
Proof.
  revert n. induction s as [|b s IH]; cbn [take_while]; intros n E; apply bind_inv in E as (u & _ & E).
  - injection E as <-. exists [], []. repeat split; auto. intros c r X. discriminate.
  - destruct (f b) eqn:F.
    + apply bind_inv in E as (m & E & X). injection X as <-. destruct (IH m E) as (a & r & -> & <- & A & R).
      exists (b :: a), r. repeat split; auto.
    + injection E as <-. exists [], (b :: s). repeat split; auto. intros c r X Y. injection X as -> _. congruence.
Qed.
Lemma take_while_complete o f a r : extendable o = false -> Forall (fun c => f c = true) a ->
  ends (fun c => f c = true) r -> take_while o f (a ++ r) = Ok (List.length a).
Proof.
  intros NE A R. induction a as [|b a IH]; cbn [app].
  - destruct r as [|c r]; cbn [take_while]; rewrite (cache_static _ _ _ NE); cbn [bind]; [reflexivity|].
    destruct (f c) eqn:F; [|reflexivity]. destruct (R c r eq_refl F).
  - cbn [take_while]. rewrite (cache_static _ _ _ NE). cbn [bind]. rewrite (Forall_inv A).
    rewrite (IH (Forall_inv_tail A)). reflexivity.
Qed.

Lemma alnum_iff c : is_alnum c = true <-> alphanumeric c.
Proof. unfold is_alnum, is_digit, is_upper, is_lower, alphanumeric. lia. Qed.
Lemma digit_iff c : is_digit c = true <-> digit c.
Proof. unfold is_digit, digit. lia. Qed.
Lemma follow_iff c : anchor_follow c = true <-> In c after_name.
Proof. unfold anchor_follow, after_name. cbn. lia. Qed.
Lemma ends_ext P Q r : (forall c, P c <-> Q c) -> ends P r <-> ends Q r.
Proof. intros H. split; intros E c r' X; rewrite <- ?H, ?H; firstorder. Qed.

(** ** The first token of a text *)
Definition ready : scanner := mkSc 0 SStream true stats0 None cxt0.

Lemma first_calls o t : calls o t 1 = ([mkEntry (Tok TStreamStart) 0], ready, Ok tt).
Proof.
  cbn [calls]. unfold batch, scan_tokens. replace (List.length t + 3) with (S (S (List.length t + 1))) by lia.
  cbn [scan_loop]. cbn. rewrite Nat.sub_diag. reflexivity.
Qed.

Definition opener (c : N) : Prop := (c < 128 /\ c <> 32 /\ c <> 9 /\ c <> 10 /\ c <> 13 /\ c <> 35)%N.
Lemma first_token o c r q : extendable o = false -> opener c ->
  scan_next_token o (mkMs (c :: r) ready q) = dispatch o (mkMs (c :: r) ready q).
Proof.
  intros NE H. set (t := c :: r). unfold scan_next_token. erewrite run_bind by reflexivity. cbn [m_sc sc_state ready].
  assert (EW : sc_eat_whitespace o (mkMs t ready q) = (mkMs t ready q, Ok tt)).
  { unfold sc_eat_whitespace. erewrite run_bind by reflexivity. cbn [m_buf].
    assert (E : eat_whitespace o t stats0 true = Ok (t, stats0)).
    { unfold eat_whitespace. unfold fuel_of. cbn [List.length t]. cbn [loop]. unfold eat_ws_body at 1.
      rewrite (cache_static _ _ _ NE). cbn [bind].
      assert (N1 : ~ white (c :: r)) by (apply white_none; unfold opener in H; lia).
      unfold is_blank, is_break, at_is, break_amt. cbn [nth_error t].
      unfold opener in H. replace (c =? 32)%N with false by lia. replace (c =? 9)%N with false by lia.
      replace (c =? 10)%N with false by lia. replace (c =? 13)%N with false by lia. replace (c =? 35)%N with false by lia.
      replace (c =? 194)%N with false by lia. replace (c =? 226)%N with false by lia.
      destruct r as [|x [|y r]]; reflexivity. }
    unfold mbind, mlift. rewrite E. cbn. rewrite Nat.sub_diag. reflexivity. }
  erewrite run_bind; [|exact EW]. erewrite run_bind by reflexivity. erewrite run_bind by reflexivity.
  erewrite run_bind by reflexivity. erewrite run_bind by reflexivity. erewrite run_bind by reflexivity.
  erewrite run_bind by reflexivity. cbn [m_buf is_empty m_sc sc_state orb t].
  match goal with |- (if ?x then _ else _) ?y = _ => change x with false; change y with (mkMs t ready q) end. cbv iota.
  erewrite run_bind; [|unfold mlift; rewrite (cache_static _ _ _ NE); reflexivity]. reflexivity.
Qed.

Lemma first_fails o c r s e : extendable o = false -> opener c -> e <> Extend ->
  dispatch o (mkMs (c :: r) ready q_new) = (s, Err e) ->
  exists sc, calls o (c :: r) 2 = ([mkEntry (Tok TStreamStart) 0], sc, Err e).
Proof.
  intros NE H NX D. set (t := c :: r).
  assert (step : forall k, calls o t (S k) = match calls o t k with
    | (h, sc, Ok _) => let '(es, sc', r) := batch o t sc in (match r with Ok _ => h ++ es | _ => h end, sc', r)
    | x => x end) by reflexivity.
  rewrite (step 1), first_calls. unfold batch, scan_tokens.
  replace (List.length t + 3) with (S (List.length t + 2)) by lia. cbn [scan_loop].
  assert (W : want_more (q_len (@q_new entry)) ready q_new = true) by reflexivity.
  rewrite W. unfold scan_round. change (get_from t (sc_offset ready)) with (Some t). cbv iota beta.
  rewrite <- (first_token o c r q_new NE H) in D. fold t in D. rewrite D. eexists. reflexivity.
Qed.
Lemma first_takes o c r b sc e : extendable o = false -> opener c ->
  dispatch o (mkMs (c :: r) ready q_new) = (mkMs b sc (q_push q_new e), Ok tt) ->
  key_possible_now (sc_key sc) = false ->
  exists sc', calls o (c :: r) 2 = ([mkEntry (Tok TStreamStart) 0; e], sc', Ok tt).
Proof.
  intros NE H D K. set (t := c :: r).
  assert (step : forall k, calls o t (S k) = match calls o t k with
    | (h, sc, Ok _) => let '(es, sc', r) := batch o t sc in (match r with Ok _ => h ++ es | _ => h end, sc', r)
    | x => x end) by reflexivity.
  rewrite (step 1), first_calls. unfold batch, scan_tokens.
  replace (List.length t + 3) with (S (S (List.length t + 1))) by lia. cbn [scan_loop].
  assert (W : want_more (q_len (@q_new entry)) ready q_new = true) by reflexivity.
  rewrite W. unfold scan_round at 1. change (get_from t (sc_offset ready)) with (Some t). cbv iota beta.
  rewrite <- (first_token o c r q_new NE H) in D. fold t in D. rewrite D. cbn [m_buf m_sc m_q].
  set (sc1 := set_offset _ _).
  assert (W2 : want_more (q_len (@q_new entry)) sc1 (q_push q_new e) = false).
  { unfold want_more. change (sc_key sc1) with (sc_key sc). rewrite K. destruct (sc_state sc1); reflexivity. }
  rewrite W2. eexists. reflexivity.
Qed.

(** ** White space *)
Lemma skips_len c s s' : skips c s s' -> List.length s' <= List.length s.
Proof.
  induction 1 as [| |c s s' B H IH|c s s' B H IH|s s' B H IH|s s' N B H IH]; auto; rewrite skipn_length in IH; lia.
Qed.
Lemma soft_step r c s k : head_ok r -> soft r s -> skips c (skipn k s) r -> k <= List.length s ->
  is_boundary s k = true /\ soft r (skipn k s).
Proof.
  intros HR SO K L. apply skips_len in K. rewrite skipn_length in K. apply soft_boundary; auto. lia.
Qed.
Lemma eat_ws_runs o r : extendable o = false -> head_ok r -> forall c s s', skips c s s' -> s' = r -> soft r s ->
  forall st, exists st', runs (eat_ws_body o true) (s, st, c) (r, st').
Proof.
  intros NE HR. induction 1 as [s B1 B2 C|c|c s s' B H IH|c s s' B H IH|s s' B H IH|s s' N B H IH]; intros E SO st;
    [subst s|subst r|subst s'..].
  - exists st. apply runs_done. unfold eat_ws_body. rewrite (cache_static _ _ _ NE). cbn [bind].
    rewrite B1, B2, C. reflexivity.
  - exists st. apply runs_done. unfold eat_ws_body. rewrite (cache_static _ _ _ NE). destruct c; reflexivity.
  - destruct (soft_step r c s 1 HR SO H) as [BD S1]; [apply is_blank_nonempty in B; destruct s; [congruence|cbn; lia]|].
    destruct (IH eq_refl S1 (supd st 1 0 1)) as (st' & R). exists st'. eapply runs_next; [|exact R].
    unfold eat_ws_body. rewrite (cache_static _ _ _ NE). cbn [bind]. rewrite B, (is_blank_not_break _ B).
    unfold adv, skip. rewrite BD. reflexivity.
  - assert (BA : break_amt s <= List.length s) by apply break_amt_le.
    destruct (soft_step r false s (break_amt s) HR SO H BA) as [BD S1].
    destruct (IH eq_refl S1 (supd st (break_amt s) 1 0)) as (st' & R). exists st'. eapply runs_next; [|exact R].
    unfold eat_ws_body. rewrite (cache_static _ _ _ NE). cbn [bind].
    assert (NB : is_blank s = false).
    { destruct (is_blank s) eqn:X; [|reflexivity]. apply is_blank_not_break in X. congruence. }
    rewrite NB, B. unfold adv_line, skip. rewrite BD. reflexivity.
  - destruct (at_is_cons _ _ B) as (s2 & ->).
    destruct (soft_step r true (35 :: s2)%N 1 HR SO H) as [BD S1]; [cbn; lia|].
    destruct (IH eq_refl S1 (supd st 1 0 1)) as (st' & R). exists st'. eapply runs_next; [|exact R].
    unfold eat_ws_body. rewrite (cache_static _ _ _ NE). cbn [bind]. rewrite B.
    change (is_blank (35 :: s2)%N) with false. change (is_break (35 :: s2)%N) with false. cbv iota. cbn [andb].
    unfold adv, skip. rewrite BD. reflexivity.
  - destruct (soft_step r true s 1 HR SO H) as [BD S1]; [destruct s; [congruence|cbn; lia]|].
    destruct (IH eq_refl S1 (supd st 1 0 1)) as (st' & R). exists st'. eapply runs_next; [|exact R].
    unfold eat_ws_body. rewrite (cache_static _ _ _ NE). cbn [bind]. rewrite B. unfold adv, skip. rewrite BD. cbn [bind].
    destruct (is_blank s); [reflexivity|]. destruct (true && at_is s 0 35); [reflexivity|].
    destruct s; [congruence|]. reflexivity.
Qed.
Lemma eat_ws_complete o s r st : extendable o = false -> valid r -> skips false s r -> soft r s ->
  exists st', eat_whitespace o s st true = Ok (r, st') /\ reads s st r st'.
Proof.
  intros NE V H SO. pose proof (eat_ws_leaf o s st true) as L. unfold eat_whitespace in *.
  destruct (eat_ws_runs o r NE (valid_head _ V) _ _ _ H eq_refl SO st) as (st' & R).
  exists st'. rewrite (runs_loop _ _ _ R) in * by (intros X; rewrite X in L; exact L). auto.
Qed.

(** ** A text of one token and white space *)
Lemma calls_step o t k : calls o t (S k) = match calls o t k with
  | (h, sc, Ok _) => let '(es, sc', r) := batch o t sc in (match r with Ok _ => h ++ es | _ => h end, sc', r)
  | x => x end.
Proof. reflexivity. Qed.

Lemma one_token o c r a b sc e : extendable o = false -> opener c -> c :: r = a ++ b -> valid b -> ascii b -> skips false b [] ->
  dispatch o (mkMs (c :: r) ready q_new) = (mkMs b sc (q_push q_new e), Ok tt) ->
  sc_state sc = SStream ->
  match sc_key sc with Some k => kp_required (k_possible k) = false | None => True end ->
  c_indents (sc_cxt sc) = [] ->
  exists k sc', sc_state sc' = SDone /\ calls o (c :: r) k =
    ([mkEntry (Tok TStreamStart) 0; e; mkEntry (Tok TStreamEnd) (sread (sc_st sc) + List.length b)], sc', Ok tt).
Proof.
  intros NE H ET V A SK D ST K I. set (t := c :: r) in *.
  assert (SO : soft [] b) by (exists b; rewrite app_nil_r; auto).
  destruct (eat_ws_complete o b [] stats0 NE eq_refl SK SO) as (d & EAT & RD).
  assert (SD : sread (sadd (sc_st sc) d) = sread (sc_st sc) + List.length b).
  { apply reads_len in RD as (_ & RD & _). cbn in RD |- *. lia. }
  assert (OFF : List.length t - List.length b = List.length a).
  { rewrite ET, app_length. lia. }
  assert (G : get_from t (List.length a) = Some b).
  { unfold get_from. rewrite ET, boundary_app by (apply valid_head, V). rewrite skipn_app_exact. reflexivity. }
  set (sc1 := set_offset (List.length a) sc).
  assert (W : want_more (q_len (@q_new entry)) ready q_new = true) by reflexivity.
  assert (R1 : scan_round o t ready q_new = (sc1, q_push q_new e, Ok tt)).
  { unfold scan_round. change (get_from t (sc_offset ready)) with (Some t). cbv iota beta.
    unfold t. rewrite (first_token o c r q_new NE H). fold t. rewrite D. cbn [m_buf m_sc m_q]. rewrite OFF. reflexivity. }
  destruct (key_possible_now (sc_key sc)) eqn:KP.
  - exists 2. destruct (end_round_ws o b d sc1 (q_push q_new e)) as (sc' & SD' & E); auto.
    { apply boundary_end. }
    exists (set_offset (List.length t) sc'). split; [exact SD'|].
    rewrite (calls_step _ _ 1), first_calls. unfold batch, scan_tokens.
    replace (List.length t + 3) with (S (S (List.length t + 1))) by lia. cbn [scan_loop].
    rewrite W, R1. unfold want_more at 1. change (sc_state sc1) with (sc_state sc). rewrite ST.
    change (sc_key sc1) with (sc_key sc). rewrite KP, orb_true_r.
    unfold scan_round. change (sc_offset sc1) with (List.length a). rewrite G, E. cbn [m_buf m_sc m_q List.length].
    rewrite Nat.sub_0_r. replace (List.length t + 1) with (S (List.length t)) by lia. cbn [scan_loop].
    unfold want_more. change (sc_state (set_offset (List.length t) sc')) with (sc_state sc'). rewrite SD'.
    change (sc_st sc1) with (sc_st sc). rewrite SD. reflexivity.
  - exists 3. destruct (end_round_ws o b d sc1 q_new) as (sc' & SD' & E); auto.
    { apply boundary_end. }
    exists (set_offset (List.length t) sc'). split; [exact SD'|].
    assert (C2 : calls o t 2 = ([mkEntry (Tok TStreamStart) 0; e], sc1, Ok tt)).
    { rewrite (calls_step _ _ 1), first_calls. unfold batch, scan_tokens.
      replace (List.length t + 3) with (S (S (List.length t + 1))) by lia. cbn [scan_loop].
      rewrite W, R1. unfold want_more at 1. change (sc_state sc1) with (sc_state sc). rewrite ST.
      change (sc_key sc1) with (sc_key sc). rewrite KP. reflexivity. }
    rewrite (calls_step _ _ 2), C2. unfold batch, scan_tokens.
    replace (List.length t + 3) with (S (S (List.length t + 1))) by lia. cbn [scan_loop].
    unfold want_more at 1. change (sc_state sc1) with (sc_state sc). rewrite ST, Nat.eqb_refl. cbn [orb].
    unfold scan_round. change (sc_offset sc1) with (List.length a). rewrite G, E. cbn [m_buf m_sc m_q List.length].
    rewrite Nat.sub_0_r. unfold want_more at 1.
    change (sc_state (set_offset (List.length t) sc')) with (sc_state sc'). rewrite SD'.
    change (sc_st sc1) with (sc_st sc). rewrite SD. reflexivity.
Qed.

(** ** Anchors and aliases *)
Lemma anchor_sound o c r st alias tok buf d : scan_anchor o (c :: r) st alias = Ok (tok, buf, d) ->
  exists name b r', r = name ++ b :: r' /\ name <> [] /\ Forall alphanumeric name /\ In b after_name /\
    tok = naming alias (Borrowed name) /\ buf = b :: r'.
Proof.
  intros X. unfold scan_anchor in X. apply bind_inv in X as ([b1 s1] & A & X). apply adv_skip in A. cbn in A. subst b1.
  apply bind_inv in X as (n & T & X). apply take_while_spec in T as (name & r2 & -> & <- & F & E).
  apply bind_inv in X as ([b2 s2] & A & X). apply adv_skip in A. rewrite skipn_app_exact in A. subst b2.
  rewrite firstn_app_exact in X. destruct name as [|x name]; [discriminate|]. cbn [is_empty] in X.
  apply bind_inv in X as (u & _ & X). destruct r2 as [|b r']; [discriminate|].
  destruct (anchor_follow b) eqn:FO; [|discriminate]. injection X as <- <- <-.
  exists (x :: name), b, r'. split; [reflexivity|]. split; [discriminate|]. split.
  - eapply Forall_impl; [|exact F]. intros y. apply alnum_iff.
  - split; [apply follow_iff, FO|]. split; [destruct alias; reflexivity|reflexivity].
Qed.

Lemma scan_anchor_run o alias name r st : extendable o = false -> valid r ->
  Forall alphanumeric name -> ends alphanumeric r ->
  scan_anchor o (indicator alias :: name ++ r) st alias =
    match name, r with
    | [], _ => Err InvalidAnchorName
    | _, [] => Err UnexpectedEOF
    | _, b :: _ => if anchor_follow b
        then Ok (naming alias (Borrowed name), r, supd st (S (List.length name)) 0 (S (List.length name)))
        else Err InvalidAnchorName
    end.
Proof.
  intros NE V F E. unfold scan_anchor.
  assert (HN : head_ok (name ++ r)).
  { destruct name as [|x name]; [apply valid_head, V|]. 
    assert (X : (x < 128)%N) by (pose proof (Forall_inv F) as X; unfold alphanumeric in X; lia).
    exact (UriFacts.ascii_head x (name ++ r) X). }
  change (indicator alias :: name ++ r) with ([indicator alias] ++ name ++ r).
  assert (A1 : adv ([indicator alias] ++ name ++ r) st 1 = Ok (name ++ r, supd st 1 0 1)).
  { pose proof (adv_app [indicator alias] (name ++ r) st HN) as A. exact A. }
  rewrite A1. cbn [bind]. rewrite take_while_complete; auto.
  2:{ eapply Forall_impl; [|exact F]. intros y. apply alnum_iff. }
  2:{ eapply ends_ext; [intros y; apply alnum_iff|exact E]. }
  cbn [bind]. rewrite firstn_app_exact, adv_app by (apply valid_head, V). cbn [bind].
  rewrite supd_supd. destruct name as [|x name]; [reflexivity|]. cbn [is_empty].
  rewrite (cache_static _ _ _ NE). cbn [bind]. destruct r as [|b r]; [reflexivity|]. destruct alias; reflexivity.
Qed.

Lemma stream_named t o s l x e alias c : valid t -> consumes (open t o) s = (l, x) -> In e l ->
  e_wrap e = Tok (naming alias c) ->
  exists n name b r, skipn n t = indicator alias :: name ++ b :: r /\ c = Borrowed name /\ name <> [] /\
    Forall alphanumeric name /\ In b after_name /\ (exactly t -> skipn (e_read e) t = b :: r).
Proof.
  intros V C IN EW. destruct (stream_from t o V s l x e C IN) as (n & st & cx & k & st' & B & CT & ER & POS).
  { unfold e_marker. rewrite EW. destruct alias; reflexivity. }
  rewrite EW in CT. remember (Tok (naming alias c)) as m eqn:EM. clear EW.
  destruct CT as [A|start A1 A2 A3|dk tok buf k d A1 A2 A3 D A4|tok k d A D|al tok buf k d A D A2
    |sg tok k d A D|tok k st' A D|fd tok k st' A1 A2 D]; try (destruct alias; discriminate).
  - destruct start, alias; discriminate.
  - destruct (ScanFacts.directive_kind _ _ _ _ _ _ _ D) as [(? & ? & ->)|(? & ? & ->)]; destruct alias; discriminate.
  - destruct (tag_kind _ _ _ _ _ _ D) as (? & ? & ->). destruct alias; discriminate.
  - destruct (at_is_cons _ _ A) as (r0 & ES). rewrite ES in D.
    destruct (anchor_sound _ _ _ _ _ _ _ _ D) as (name & b & r & -> & NN & F & FO & -> & ->).
    assert (al = alias) as -> by (destruct al, alias; try reflexivity; discriminate EM).
    assert (c = Borrowed name) as -> by (destruct alias; injection EM as ->; reflexivity).
    exists n, name, b, r. split; [destruct alias; exact ES|]. repeat (split; [auto; reflexivity|]).
    intros EX. destruct (POS EX) as [R _].
    assert (PB : plain_byte (if alias then 42%N else 38%N)) by (destruct alias; repeat split; discriminate).
    pose proof (leaf_inv _ _ _ _ _ (scan_anchor_leaf (no_extend o) _ (name ++ b :: r) stats0 alias PB) D) as [RD _].
    rewrite <- ES in RD. apply exact_suffix in RD. apply exact_suffix in R.
    rewrite ER. change (sread (sadd st d)) with (sread st + sread d).
    rewrite <- skipn_skipn, <- R. symmetry. exact RD.
  - subst tok. destruct (flow_style _ _ _ _ _ _ _ D) as (L & E & y & E'). destruct alias; discriminate.
  - subst tok. destruct (plain_style _ _ _ _ _ _ _ D) as (y & E). destruct alias; discriminate.
  - subst tok. destruct (block_style _ _ _ _ _ _ _ _ D) as (y & E). destruct alias; discriminate.
Qed.

Lemma anchor_opener alias : opener (indicator alias).
Proof. unfold opener. destruct alias; cbn; lia. Qed.
Lemma dispatch_anchor o alias r q : dispatch o (mkMs (indicator alias :: r) ready q) =
  fetch_anchor o (mkMs (indicator alias :: r) ready q).
Proof. destruct alias; reflexivity. Qed.

Lemma anchor_valid alias name r : Forall alphanumeric name -> valid r -> valid (indicator alias :: name ++ r).
Proof.
  intros F V. apply (valid_app (indicator alias :: name)); [|exact V]. apply valid_text.
  constructor; [destruct alias; reflexivity|]. eapply Forall_impl; [|exact F]. unfold alphanumeric. intros; lia.
Qed.
Lemma anchor_rejected alias name r o e : Forall alphanumeric name -> valid r -> ends alphanumeric r ->
  (name = [] /\ e = InvalidAnchorName) \/ (name <> [] /\ r = [] /\ e = UnexpectedEOF) \/
  (exists b r', name <> [] /\ r = b :: r' /\ ~ In b after_name /\ e = InvalidAnchorName) ->
  forall s l x, consumes (open (indicator alias :: name ++ r) o) s = (l, x) -> 2 <= fills s -> x = Err (RScan e).
Proof.
  intros F V E H s l x C L.
  assert (S : scan_anchor (no_extend o) (indicator alias :: name ++ r) stats0 alias = Err e).
  { rewrite scan_anchor_run; auto. destruct H as [[-> ->]|[(NN & -> & ->)|(b & r' & NN & -> & NB & ->)]]; [reflexivity|..].
    - destruct name; [congruence|reflexivity].
    - destruct name; [congruence|]. destruct (anchor_follow b) eqn:X; [|reflexivity]. apply follow_iff in X. tauto. }
  assert (D : exists s', dispatch (no_extend o) (mkMs (indicator alias :: name ++ r) ready q_new) = (s', Err e)).
  { rewrite dispatch_anchor. unfold fetch_anchor. erewrite run_bind by reflexivity. cbn [m_buf].
    assert (AT : at_is (indicator alias :: name ++ r) 0 42 || at_is (indicator alias :: name ++ r) 0 38 = true /\
      at_is (indicator alias :: name ++ r) 0 42 = alias) by (destruct alias; split; reflexivity).
    destruct AT as [-> ->]. unfold mbind at 1, mlift at 1. rewrite S. eauto. }
  destruct D as (s' & D).
  assert (NX : e <> Extend) by (destruct H as [[_ ->]|[(_ & _ & ->)|(? & ? & _ & _ & _ & ->)]]; discriminate).
  destruct (first_fails (no_extend o) _ _ s' e eq_refl (anchor_opener alias) NX D) as (sc & CL).
  apply (calls_fail _ o 2 _ _ _ s l x (anchor_valid alias name r F V) CL L C).
Qed.

Lemma anchor_alone alias name w o : Forall alphanumeric name -> name <> [] -> all_ascii w -> skips false w [] ->
  (exists c w', w = c :: w' /\ (c = 32 \/ c = 10)%N) ->
  yields (indicator alias :: name ++ w) o
    [mkEntry (Tok TStreamStart) 0; mkEntry (Tok (naming alias (Borrowed name))) (S (List.length name));
     mkEntry (Tok TStreamEnd) (S (List.length name + List.length w))].
Proof.
  intros F NN A SK (c & w' & EW & HC). pose proof (valid_text w A) as V. set (t := indicator alias :: name ++ w).
  assert (EN : ends alphanumeric w).
  { intros y r' E X. rewrite EW in E. injection E as -> _. unfold alphanumeric in X. lia. }
  assert (SA : scan_anchor (no_extend o) t stats0 alias =
    Ok (naming alias (Borrowed name), w, supd stats0 (S (List.length name)) 0 (S (List.length name)))).
  { unfold t. rewrite scan_anchor_run; auto. rewrite EW. destruct name; [congruence|].
    replace (anchor_follow c) with true; [reflexivity|]. symmetry. apply follow_iff. unfold after_name. destruct HC as [-> | ->]; cbn; auto. }
  assert (D : dispatch (no_extend o) (mkMs t ready q_new) =
    (mkMs w (mkSc 0 SStream false (supd stats0 (S (List.length name)) 0 (S (List.length name))) (Some (new_key stats0 false)) cxt0)
      (q_push q_new (mkEntry (Tok (naming alias (Borrowed name))) (S (List.length name)))), Ok tt)).
  { unfold t. rewrite dispatch_anchor. fold t. unfold fetch_anchor. erewrite run_bind by reflexivity. cbn [m_buf].
    assert (AT : at_is t 0 42 || at_is t 0 38 = true /\ at_is t 0 42 = alias) by (unfold t; destruct alias; split; reflexivity).
    destruct AT as [-> ->]. erewrite run_bind; [|unfold mlift; rewrite SA; reflexivity]. cbv beta iota.
    assert (SV : save_key false (mkMs t ready q_new) = (mkMs t (set_key (Some (new_key stats0 false)) ready) q_new, Ok tt)) by reflexivity.
    erewrite run_bind; [|exact SV]. erewrite run_bind by reflexivity.
    assert (AD : forall sc, advance (consumed t w) (mkMs t sc q_new) = (mkMs w sc q_new, Ok tt)).
    { intros sc. change t with ((indicator alias :: name) ++ w). rewrite consumed_app.
      unfold advance, mbind, get_buf, mlift, put_buf. cbn [m_buf]. rewrite skip_app by (apply valid_head, V). reflexivity. }
    erewrite run_bind; [|apply AD]. reflexivity. }
  destruct (one_token (no_extend o) (indicator alias) (name ++ w) (indicator alias :: name) w _ _ eq_refl
    (anchor_opener alias) eq_refl V A SK D eq_refl eq_refl eq_refl) as (k & sc' & SD & CL).
  pose proof (calls_yields t o k _ sc' (anchor_valid alias name w F V) CL SD) as Y.
  cbn in Y. replace (List.length name <=? List.length name + List.length w) with true in Y by (symmetry; apply Nat.leb_le; lia).
  exact Y.
Qed.

(** ** Versions *)
Lemma atoi_spec ds : Forall digit ds -> forall acc, (acc <= 255)%N ->
  let v := fold_left (fun v d => 10 * v + (d - 48))%N ds acc in
  (acc <= v)%N /\ atoi_acc ds acc = if (v <=? 255)%N then Some v else None.
Proof.
  induction ds as [|d ds IH]; intros F acc L; cbn [fold_left atoi_acc].
  - split; [lia|]. replace (acc <=? 255)%N with true by lia. reflexivity.
  - replace (acc * 10 + (d - 48))%N with (10 * acc + (d - 48))%N by lia.
    set (a := (10 * acc + (d - 48))%N). assert (LA : (acc <= a)%N) by (unfold a; lia).
    destruct (a <=? 255)%N eqn:E.
    + destruct (IH (Forall_inv_tail F) a) as [A B]; [lia|]. split; [lia|exact B].
    + assert (M : forall x, (x <= fold_left (fun v d => 10 * v + (d - 48)) ds x)%N).
      { clear. induction ds as [|d ds IH]; intros x; cbn [fold_left]; [lia|]. specialize (IH (10 * x + (d - 48))%N). lia. }
      specialize (M a). split; [lia|]. destruct (N.leb_spec (fold_left (fun v d => 10 * v + (d - 48)) ds a)%N 255%N); [lia|reflexivity].
Qed.
Lemma atoi_u8_spec ds : Forall digit ds -> ds <> [] ->
  atoi_u8 ds = if (decimal ds <=? 255)%N then Some (decimal ds) else None.
Proof.
  intros F N0. unfold atoi_u8. destruct ds as [|d ds]; [congruence|].
  apply (atoi_spec (d :: ds) F 0%N). lia.
Qed.

Lemma version_sound o s v n : scan_directive_version o s = Ok (v, n) ->
  exists ds r, s = ds ++ r /\ List.length ds = n /\ version_number ds v /\ ends digit r.
Proof.
  intros X. unfold scan_directive_version in X. apply bind_inv in X as (m & T & X).
  apply take_while_spec in T as (ds & r & -> & <- & F & E). rewrite firstn_app_exact in X.
  assert (F' : Forall digit ds) by (eapply Forall_impl; [|exact F]; intros y; apply digit_iff).
  destruct ds as [|d ds]; [discriminate|]. rewrite (atoi_u8_spec (d :: ds) F' ltac:(discriminate)) in X.
  destruct (decimal (d :: ds) <=? 255)%N eqn:L; [|discriminate]. injection X as <- <-.
  exists (d :: ds), r. split; [reflexivity|]. split; [reflexivity|]. split.
  - split; [discriminate|]. split; [exact F'|]. split; [reflexivity|lia].
  - eapply ends_ext; [intros y; symmetry; apply digit_iff|exact E].
Qed.
Lemma version_run o ds r : extendable o = false -> Forall digit ds -> ends digit r ->
  (exists v, version_number ds v /\ scan_directive_version o (ds ++ r) = Ok (v, List.length ds)) \/
  (~ (exists v, version_number ds v)) /\ scan_directive_version o (ds ++ r) = Err InvalidVersion.
Proof.
  intros NE F E. unfold scan_directive_version. rewrite take_while_complete; auto.
  2:{ eapply Forall_impl; [|exact F]. intros y. apply digit_iff. }
  2:{ eapply ends_ext; [intros y; apply digit_iff|exact E]. }
  cbn [bind]. rewrite firstn_app_exact. destruct ds as [|d ds].
  - right. split; [|reflexivity]. intros (v & N0 & _). congruence.
  - rewrite (atoi_u8_spec (d :: ds) F ltac:(discriminate)). destruct (decimal (d :: ds) <=? 255)%N eqn:L.
    + left. exists (decimal (d :: ds)). split; [|reflexivity]. split; [discriminate|]. split; [exact F|]. split; [reflexivity|lia].
    + right. split; [|reflexivity]. intros (v & _ & _ & -> & L'). lia.
Qed.

Lemma eat_plain_gap o base st buf st' : eat_whitespace o base st false = Ok (buf, st') ->
  forall l, exists k l', gap l k base buf l'.
Proof.
  intros X. apply loop_runs in X. remember (base, st, false) as s0 eqn:E0. remember (buf, st') as r0 eqn:ER.
  revert base st E0. induction X as [s r B|s s' r B R IH]; intros base st -> l; unfold eat_ws_body in B;
    apply bind_inv in B as (u & _ & B); subst; cbn [andb] in B.
  - destruct (is_blank base) eqn:BL; [destruct (is_break base); apply bind_inv in B as ([? ?] & _ & B); discriminate|].
    destruct (is_break base) eqn:BR; [apply bind_inv in B as ([? ?] & _ & B); discriminate|].
    injection B as <- <-. exists 0, l. apply gap_end. apply not_white. unfold is_ws. rewrite BL, BR. reflexivity.
  - destruct (is_blank base) eqn:BL.
    + rewrite (is_blank_not_break _ BL) in B. apply bind_inv in B as ([b1 s1] & A & B). injection B as <-.
      apply adv_skip in A. destruct base as [|c base]; [discriminate|]. cbn in A. subst b1.
      destruct (IH eq_refl base s1 eq_refl false) as (k & l' & G). exists k, l'. apply gap_blank; [|exact G].
      unfold is_blank, at_is in BL. cbn in BL. unfold blank. lia.
    + destruct (is_break base) eqn:BR; [|discriminate].
      apply bind_inv in B as ([b1 s1] & A & B). injection B as <-. apply adv_line_skip in A. subst b1.
      destruct (IH eq_refl _ s1 eq_refl true) as (k & l' & G). exists (S k), l'.
      rewrite <- break_len_amt in G. apply gap_break; [|exact G].
      rewrite break_len_amt. unfold is_break in BR. lia.
Qed.

Lemma directive_sound o base st tok buf d : scan_directive o base st KVersion = Ok (tok, buf, d) ->
  exists k l d1 d2 a b, gap false k base (d1 ++ 46%N :: d2 ++ buf) l /\ version_number d1 a /\ version_number d2 b /\
    ends digit buf /\ tok = TVersionDirective a b.
Proof.
  unfold scan_directive. intros X. apply bind_inv in X as ([b0 s0] & W & X).
  destruct (eat_plain_gap _ _ _ _ _ W false) as (k & l & G).
  apply bind_inv in X as ([a n] & V1 & X). apply version_sound in V1 as (d1 & r & -> & <- & V1 & E1).
  apply bind_inv in X as ([b1 s1] & A & X). apply adv_skip in A. rewrite skipn_app_exact in A. subst b1.
  apply bind_inv in X as (u & _ & X). destruct r as [|c r]; [discriminate|].
  destruct (N.eqb_spec c 46) as [->|]; [|discriminate].
  apply bind_inv in X as ([b2 s2] & A & X). apply adv_skip in A. cbn in A. subst b2.
  apply bind_inv in X as ([b n] & V2 & X). apply version_sound in V2 as (d2 & r2 & -> & <- & V2 & E2).
  apply bind_inv in X as ([b3 s3] & A & X). apply adv_skip in A. rewrite skipn_app_exact in A. subst b3.
  injection X as <- <- <-. exists k, l, d1, d2, a, b. auto.
Qed.

Lemma starts_bytes s p : starts_with s p = true -> s = p ++ skipn (List.length p) s.
Proof.
  revert s. induction p as [|c p IH]; intros s H; [reflexivity|]. destruct s as [|x s]; [discriminate|].
  cbn in H. apply andb_true_iff in H as [E H]. apply N.eqb_eq in E as ->. cbn [List.length skipn app]. f_equal. auto.
Qed.

Lemma tag_directive_kind o b st tok buf d : scan_directive o b st KTag = Ok (tok, buf, d) ->
  exists h p, tok = TTagDirective h p.
Proof.
  unfold scan_directive. intros H. apply bind_inv in H as ([s1 st1] & _ & H).
  apply bind_inv in H as ([[tok' amt] st2] & E0 & H). apply bind_inv in H as (s2 & _ & H).
  assert (tok = tok') as -> by congruence. clear H. unfold scan_tag_directive in E0.
  apply bind_inv in E0 as ([h st3] & _ & E0). destruct h as [[h amt']|]; [|discriminate].
  apply bind_inv in E0 as (s3 & _ & E0). apply bind_inv in E0 as (s4 & _ & E0).
  destruct (is_empty _); [discriminate|]. destruct (negb _); [discriminate|].
  apply bind_inv in E0 as ([s5 st5] & _ & E0). apply bind_inv in E0 as ([[[p a2] st6] borrow] & _ & E0).
  destruct (is_ws_at _ _); [|destruct (is_empty _); discriminate].
  apply bind_inv in E0 as (s6 & _ & E0). destruct borrow; cbn in E0; eexists; eexists; injection E0 as <- _ _; reflexivity.
Qed.

Lemma stream_version t o s l x e a b : valid t -> consumes (open t o) s = (l, x) -> In e l ->
  e_wrap e = Tok (TVersionDirective a b) ->
  exists n base k lb d1 d2 r, skipn n t = bytes "%YAML" ++ base /\ gap false k base (d1 ++ 46%N :: d2 ++ r) lb /\
    version_number d1 a /\ version_number d2 b /\ ends digit r /\ (exactly t -> skipn (e_read e) t = r).
Proof.
  intros V C IN EW. destruct (stream_from t o V s l x e C IN) as (n & st & cx & k & st' & B & CT & ER & POS).
  { unfold e_marker. rewrite EW. reflexivity. }
  rewrite EW in CT. remember (Tok (TVersionDirective a b)) as m eqn:EM. clear EW.
  destruct CT as [A|start A1 A2 A3|dk tok buf k d A1 A2 A3 D A4|tok k d A D|al tok buf k d A D A2
    |sg tok k d A D|tok k st' A D|fd tok k st' A1 A2 D]; try discriminate.
  - destruct start; discriminate.
  - injection EM as ->. destruct dk.
    + pose proof (directive_sound _ _ _ _ _ _ D) as (kk & lb & d1 & d2 & a' & b' & G & V1 & V2 & E & ET).
      assert (a' = a /\ b' = b) as [-> ->] by (split; congruence).
      assert (ES : skipn n t = bytes "%YAML" ++ skipn 5 (skipn n t)).
      { destruct (at_is_cons _ _ A1) as (r0 & ES). rewrite ES in A3 |- *. cbn [skipn] in A3. unfold directive_kind_of in A3.
        destruct (starts_with r0 (bytes "YAML")) eqn:SW; [|destruct (starts_with r0 (bytes "TAG")); discriminate].
        apply starts_bytes in SW. rewrite SW at 1. reflexivity. }
      exists n, (skipn 5 (skipn n t)), kk, lb, d1, d2, buf. split; [exact ES|]. repeat (split; [assumption|]).
      intros EX. destruct (POS EX) as [R _].
      pose proof (leaf_inv _ _ _ _ _ (scan_directive_leaf (no_extend o) _ _ KVersion) D) as RD. cbv beta iota in RD.
      apply exact_suffix in R. apply reads_len in RD as (L & RE & DD).
      rewrite ER. change (sread (sadd st d)) with (sread st + sread d). rewrite <- skipn_skipn, <- R.
      change (1 + directive_len KVersion) with 5 in *. set (sn := skipn n t) in *.
      change (sread (supd stats0 5 0 5)) with 5 in RE.
      assert (SD : sread d = 5 + (List.length (skipn 5 sn) - List.length buf)) by lia.
      rewrite SD, <- skipn_skipn. symmetry. exact DD.
    + destruct (tag_directive_kind _ _ _ _ _ _ D) as (? & ? & E). discriminate.
  - destruct (tag_kind _ _ _ _ _ _ D) as (? & ? & ->). discriminate.
  - destruct (anchor_kind _ _ _ _ _ _ _ D) as (? & ->). destruct al; discriminate.
  - subst tok. destruct (flow_style _ _ _ _ _ _ _ D) as (L & E & y & E'). discriminate.
  - subst tok. destruct (plain_style _ _ _ _ _ _ _ D) as (y & E). discriminate.
  - subst tok. destruct (block_style _ _ _ _ _ _ _ _ D) as (y & E). discriminate.
Qed.

Lemma digit_ascii ds : Forall digit ds -> all_ascii ds.
Proof. intros F. eapply Forall_impl; [|exact F]. unfold digit. intros; lia. Qed.
Lemma adv_run ds r st : Forall digit ds -> valid r ->
  adv (ds ++ r) st (List.length ds) = Ok (r, supd st (List.length ds) 0 (List.length ds)).
Proof. intros F V. apply adv_app, valid_head, V. Qed.

Lemma cache_at_static o s k n : extendable o = false -> cache_at o s k n = Ok tt.
Proof.
  intros H. revert k. induction n as [|n IH]; intros k; cbn [cache_at]; [reflexivity|].
  destruct (width_at s k); [rewrite H; reflexivity|apply IH].
Qed.

(** What is read behind the name of the directive. *)
Lemma directive_run o w d1 s st : extendable o = false -> spaces w -> Forall digit d1 -> valid s ->
  BasicFacts.no_blank (d1 ++ s) -> ends digit s ->
  (exists a, version_number d1 a /\
    scan_directive o (w ++ d1 ++ s) st KVersion =
    let st1 := supd (supd st (List.length w) 0 (List.length w)) (List.length d1) 0 (List.length d1) in
    match s with
    | [] => Err UnexpectedEOF
    | b :: _ => if (b =? 46)%N then
        let* '(buf, st) := adv s st1 1 in
        let* '(minor, n) := scan_directive_version o buf in
        let* '(buf, st) := adv buf st n in Ok (TVersionDirective a minor, buf, st)
      else Err InvalidVersion end) \/
  (~ (exists a, version_number d1 a)) /\ scan_directive o (w ++ d1 ++ s) st KVersion = Err InvalidVersion.
Proof.
  intros NE W F V NB E. unfold scan_directive. rewrite BasicFacts.eat_blanks by assumption. cbn [bind].
  destruct (version_run o d1 s NE F E) as [(a & VN & ->)|[NV ->]]; [left|right; auto].
  exists a. split; [exact VN|]. cbn [bind]. rewrite adv_run by assumption. cbn [bind].
  rewrite (cache_static _ _ _ NE). cbn [bind]. reflexivity.
Qed.

Lemma dispatch_directive o base : extendable o = false -> head_ok base -> valid base ->
  match scan_directive o base (supd stats0 5 0 5) KVersion with
  | Ok (tok, buf, d) => valid buf -> (exists a, base = a ++ buf) ->
      exists sc, dispatch o (mkMs (yaml ++ base) ready q_new) = (mkMs buf sc (q_push q_new (mkEntry (Tok tok) (sread d))), Ok tt)
        /\ key_possible_now (sc_key sc) = false
  | Err e => exists s, dispatch o (mkMs (yaml ++ base) ready q_new) = (s, Err e)
  | _ => True
  end.
Proof.
  intros NE HO V.
  assert (D : dispatch o (mkMs (yaml ++ base) ready q_new) = fetch_directive o (mkMs (yaml ++ base) ready q_new)) by reflexivity.
  assert (AD : adv (yaml ++ base) stats0 (1 + directive_len KVersion) = Ok (base, supd stats0 5 0 5)).
  { apply (adv_app yaml base stats0). exact HO. }
  set (X := scan_directive o base (supd stats0 5 0 5) KVersion).
  assert (FD : fetch_directive o (mkMs (yaml ++ base) ready q_new) =
    (do '(tok, buf, d) <- mlift X;
     unroll_indent None ;; remove_saved_key ;; upd (set_ska false) ;;
     advance (consumed (yaml ++ base) buf) ;; add_st d ;; enqueue_here (Tok tok)) (mkMs (yaml ++ base) ready q_new)).
  { unfold fetch_directive. erewrite run_bind by reflexivity. cbn [m_buf].
    change (at_is (yaml ++ base) 0 37) with true. cbn [negb]. cbv iota.
    erewrite run_bind; [|unfold mlift; rewrite (cache_at_static _ _ _ _ NE); reflexivity].
    erewrite run_bind by reflexivity.
    assert (DK : directive_kind_of (skipn 1 (yaml ++ base)) = Ok KVersion) by (destruct base; reflexivity).
    erewrite run_bind; [|unfold mlift; rewrite DK; reflexivity].
    erewrite run_bind; [|unfold mlift; rewrite AD; reflexivity]. reflexivity. }
  rewrite D, FD. destruct X as [[[tok buf] d]|e| |]; [| |exact Logic.I|exact Logic.I].
  - intros VB (a & EB). subst base. erewrite run_bind by reflexivity. cbv beta iota.
    erewrite run_bind by reflexivity. erewrite run_bind by reflexivity. erewrite run_bind by reflexivity.
    assert (AV : forall sc, advance (consumed (yaml ++ a ++ buf) buf) (mkMs (yaml ++ a ++ buf) sc q_new) = (mkMs buf sc q_new, Ok tt)).
    { intros sc. rewrite app_assoc, consumed_app.
      unfold advance, mbind, get_buf, mlift, put_buf. cbn [m_buf]. rewrite skip_app by (apply valid_head, VB). reflexivity. }
    erewrite run_bind; [|apply AV]. eexists. split; reflexivity.
  - eexists. reflexivity.
Qed.

Lemma digits_no_blank d1 c s : Forall digit d1 -> not_white_space c -> BasicFacts.no_blank (d1 ++ c :: s).
Proof.
  intros F H. destruct F as [|d ds D F]; unfold BasicFacts.no_blank; cbn [app]; unfold not_white_space, digit in *; lia.
Qed.
Lemma spaces_ascii w : spaces w -> all_ascii w.
Proof. intros F. eapply Forall_impl; [|exact F]. unfold blank. intros; lia. Qed.
Lemma yaml_valid s : valid s -> valid (yaml ++ s).
Proof. intros V. apply valid_app; [|exact V]. apply valid_text. repeat constructor. Qed.
Lemma ascii_valid a s : all_ascii a -> valid s -> valid (a ++ s).
Proof. intros A V. apply valid_app; [|exact V]. apply valid_text, A. Qed.
Lemma yaml_opener : opener 37.
Proof. unfold opener. lia. Qed.

Lemma version_fails o base e : valid base -> e <> Extend ->
  scan_directive (no_extend o) base (supd stats0 5 0 5) KVersion = Err e ->
  forall s l x, consumes (open (yaml ++ base) o) s = (l, x) -> 2 <= fills s -> x = Err (RScan e).
Proof.
  intros V NX SD s l x C L.
  pose proof (dispatch_directive (no_extend o) base eq_refl (valid_head _ V) V) as D. rewrite SD in D.
  destruct D as (s' & D).
  destruct (first_fails (no_extend o) 37%N _ s' e eq_refl yaml_opener NX D) as (sc & CL).
  apply (calls_fail _ o 2 _ _ _ s l x (yaml_valid _ V) CL L C).
Qed.

Lemma version_rejected w d1 d2 r o : spaces w -> Forall digit d1 -> Forall digit d2 -> ends digit r -> valid r ->
  ~ (exists a b, version_number d1 a /\ version_number d2 b) ->
  forall s l x, consumes (open (yaml ++ w ++ d1 ++ 46%N :: d2 ++ r) o) s = (l, x) -> 2 <= fills s ->
  x = Err (RScan InvalidVersion).
Proof.
  intros W F1 F2 E V NV. 
  assert (V2 : valid (46%N :: d2 ++ r)).
  { apply (ascii_valid [46%N] (d2 ++ r)); [repeat constructor|]. apply ascii_valid; [apply digit_ascii, F2|exact V]. }
  apply version_fails; [apply ascii_valid; [apply spaces_ascii, W|]; apply ascii_valid; [apply digit_ascii, F1|exact V2]|discriminate|].
  destruct (directive_run (no_extend o) w d1 (46%N :: d2 ++ r) (supd stats0 5 0 5) eq_refl W F1 V2) as [(a & VN & ->)|[_ ->]].
  - apply digits_no_blank; [exact F1|]. unfold not_white_space. lia.
  - intros c r' X. injection X as <- _. unfold digit. lia.
  - cbn [N.eqb Pos.eqb]. cbv zeta. rewrite BasicFacts.adv1 by (apply valid_head, ascii_valid; [apply digit_ascii, F2|exact V]).
    cbn [bind]. destruct (version_run (no_extend o) d2 r eq_refl F2 E) as [(b & VN2 & _)|[_ ->]]; [|reflexivity].
    exfalso. eauto.
  - reflexivity.
Qed.
Lemma version_rejected_dot w d1 c r o : spaces w -> Forall digit d1 -> valid (c :: r) ->
  not_white_space c -> c <> 46%N -> ~ digit c ->
  forall s l x, consumes (open (yaml ++ w ++ d1 ++ c :: r) o) s = (l, x) -> 2 <= fills s ->
  x = Err (RScan InvalidVersion).
Proof.
  intros W F1 V NW NC ND.
  apply version_fails; [apply ascii_valid; [apply spaces_ascii, W|]; apply ascii_valid; [apply digit_ascii, F1|exact V]|discriminate|].
  destruct (directive_run (no_extend o) w d1 (c :: r) (supd stats0 5 0 5) eq_refl W F1 V) as [(a & VN & ->)|[_ ->]].
  - apply digits_no_blank; assumption.
  - intros y r' X. injection X as <- _. exact ND.
  - apply N.eqb_neq in NC. rewrite NC. reflexivity.
  - reflexivity.
Qed.
Lemma version_accepted w d1 d2 r a b o : spaces w -> version_number d1 a -> version_number d2 b -> ends digit r -> valid r ->
  exists x, consumes (open (yaml ++ w ++ d1 ++ 46%N :: d2 ++ r) o) [Fill; Fill; Pull; Pull] =
    ([mkEntry (Tok TStreamStart) 0;
      mkEntry (Tok (TVersionDirective a b)) (List.length (yaml ++ w ++ d1 ++ 46%N :: d2))], Ok x).
Proof.
  intros W VN1 VN2 E V. pose proof VN1 as (_ & F1 & _). pose proof VN2 as (_ & F2 & _).
  assert (V2 : valid (46%N :: d2 ++ r)).
  { apply (ascii_valid [46%N] (d2 ++ r)); [repeat constructor|]. apply ascii_valid; [apply digit_ascii, F2|exact V]. }
  assert (VB : valid (w ++ d1 ++ 46%N :: d2 ++ r)).
  { apply ascii_valid; [apply spaces_ascii, W|]; apply ascii_valid; [apply digit_ascii, F1|exact V2]. }
  set (n := List.length (yaml ++ w ++ d1 ++ 46%N :: d2)).
  assert (SD : scan_directive (no_extend o) (w ++ d1 ++ 46%N :: d2 ++ r) (supd stats0 5 0 5) KVersion =
    Ok (TVersionDirective a b, r, supd stats0 n 0 n)).
  { destruct (directive_run (no_extend o) w d1 (46%N :: d2 ++ r) (supd stats0 5 0 5) eq_refl W F1 V2) as [(a' & VN & ->)|[NV _]].
    - apply digits_no_blank; [exact F1|]. unfold not_white_space. lia.
    - intros c r' X. injection X as <- _. unfold digit. lia.
    - cbn [N.eqb Pos.eqb]. cbv zeta. rewrite BasicFacts.adv1 by (apply valid_head, ascii_valid; [apply digit_ascii, F2|exact V]).
      cbn [bind]. destruct (version_run (no_extend o) d2 r eq_refl F2 E) as [(b' & VN2' & ->)|[NV _]]; [|exfalso; eauto].
      cbn [bind]. rewrite adv_run by assumption. cbn [bind].
      assert (a' = a) as -> by (destruct VN as (_ & _ & -> & _), VN1 as (_ & _ & -> & _); reflexivity).
      assert (b' = b) as -> by (destruct VN2' as (_ & _ & -> & _), VN2 as (_ & _ & -> & _); reflexivity).
      rewrite !supd_supd. do 2 f_equal. unfold n. rewrite !app_length. cbn [List.length].
      change (List.length yaml) with 5. f_equal; lia.
    - exfalso. eauto. }
  pose proof (dispatch_directive (no_extend o) _ eq_refl (valid_head _ VB) VB) as D. rewrite SD in D.
  destruct (D V) as (sc & D' & K).
  { exists (w ++ d1 ++ 46%N :: d2). rewrite <- !app_assoc. reflexivity. }
  destruct (first_takes (no_extend o) 37%N _ _ _ _ eq_refl yaml_opener D' K) as (sc' & CL).
  destruct (calls_taken _ o 2 _ _ (yaml_valid _ VB) CL) as (x & T). exists x. etransitivity; [exact T|].
  reflexivity.
Qed.

(** ** As claimed *)
Lemma names_of_streams (t : str) (o : flags) : well_formed t ->
  forall s l x e alias c, consumes (open t o) s = (l, x) -> In e l -> e_wrap e = Tok (naming alias c) ->
  exists n name b r, skipn n t = indicator alias :: name ++ b :: r /\ c = Borrowed name /\ name <> [] /\ Forall alphanumeric name /\ In b after_name /\ (no_verbatim_tag t -> skipn (e_read e) t = b :: r).
Proof.
  intros V s l x e alias c C IN E. apply valid_iff in V.
  destruct (stream_named t o s l x e alias c V C IN E) as (n & name & b & r & A1 & A2 & A3 & A4 & A5 & A6).
  exists n, name, b, r. repeat (split; [assumption|]). intros NV. apply A6, no_verbatim_exactly, NV.
Qed.
Lemma names_rejected alias name r o e : Forall alphanumeric name -> well_formed r -> ends alphanumeric r ->
  (name = [] /\ e = InvalidAnchorName) \/ (name <> [] /\ r = [] /\ e = UnexpectedEOF) \/
  (exists b r', name <> [] /\ r = b :: r' /\ ~ In b after_name /\ e = InvalidAnchorName) ->
  forall s l x, consumes (open (indicator alias :: name ++ r) o) s = (l, x) -> 2 <= fills s -> x = Err (RScan e).
Proof. intros F V. apply valid_iff in V. apply anchor_rejected; assumption. Qed.
Lemma versions_of_streams (t : str) (o : flags) : well_formed t ->
  forall s l x e a b, consumes (open t o) s = (l, x) -> In e l -> e_wrap e = Tok (TVersionDirective a b) ->
  exists n base k lb d1 d2 r, skipn n t = yaml ++ base /\ gap false k base (d1 ++ 46%N :: d2 ++ r) lb /\ version_number d1 a /\ version_number d2 b /\ ends digit r /\ (no_verbatim_tag t -> skipn (e_read e) t = r).
Proof.
  intros V s l x e a b C IN E. apply valid_iff in V.
  destruct (stream_version t o s l x e a b V C IN E) as (n & base & k & lb & d1 & d2 & r & A1 & A2 & A3 & A4 & A5 & A6).
  exists n, base, k, lb, d1, d2, r. repeat (split; [assumption|]). intros NV. apply A6, no_verbatim_exactly, NV.
Qed.
Lemma versions_accepted w d1 d2 r a b o : spaces w -> version_number d1 a -> version_number d2 b -> ends digit r -> well_formed r ->
  exists x, consumes (open (yaml ++ w ++ d1 ++ 46%N :: d2 ++ r) o) [Fill; Fill; Pull; Pull] =
    ([mkEntry (Tok TStreamStart) 0;
      mkEntry (Tok (TVersionDirective a b)) (List.length (yaml ++ w ++ d1 ++ 46%N :: d2))], Ok x).
Proof. intros W A B E V. apply valid_iff in V. apply version_accepted; assumption. Qed.
Lemma versions_rejected w d1 d2 r o : spaces w -> Forall digit d1 -> Forall digit d2 -> ends digit r -> well_formed r ->
  ~ (exists a b, version_number d1 a /\ version_number d2 b) ->
  forall s l x, consumes (open (yaml ++ w ++ d1 ++ 46%N :: d2 ++ r) o) s = (l, x) -> 2 <= fills s ->
  x = Err (RScan InvalidVersion).
Proof. intros W A B E V. apply valid_iff in V. apply version_rejected; assumption. Qed.
Lemma versions_without_dot w d1 c r o : spaces w -> Forall digit d1 -> well_formed (c :: r) ->
  not_white_space c -> c <> 46%N -> ~ digit c ->
  forall s l x, consumes (open (yaml ++ w ++ d1 ++ c :: r) o) s = (l, x) -> 2 <= fills s ->
  x = Err (RScan InvalidVersion).
Proof. intros W A V. apply valid_iff in V. apply version_rejected_dot; assumption. Qed.
