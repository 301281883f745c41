(** Invariants of scanning: marks, nesting, framing, positions, number of tokens. *)
From Verif Require Export ScanFacts SortFacts Layout.
From Coq Require Import Lia ZifyBool ZifyN ZifyNat.
Open Scope nat_scope.

(** ** Kinds of tokens *)
Definition neutral (m : marker) : bool :=
  match m with
  | MStreamStart | MStreamEnd | MBlockSequenceStart | MBlockMappingStart | MBlockEnd
  | MFlowSequenceStart | MFlowSequenceEnd | MFlowMappingStart | MFlowMappingEnd
  | MBlockEntry | MKey | MValue => false
  | _ => true
  end.

Lemma content_neutral o b st c tok n st' : valid b -> content o b st c tok n st' ->
  neutral (maybe_marker tok) = true.
Proof.
  intros V H. destruct H as [A|start A B C|k tok buf n d A B C D E|tok n d A B|alias tok buf n d A B C
    |single tok n d A B|tok n st' A B|fold tok n st' A B C].
  - reflexivity.
  - destruct start; reflexivity.
  - destruct (ScanFacts.directive_kind _ _ _ _ _ _ _ D) as [(x & y & ->)|(h & p & ->)]; reflexivity.
  - destruct (tag_kind _ _ _ _ _ _ B) as (h & s & ->). reflexivity.
  - destruct (anchor_kind _ _ _ _ _ _ _ B) as (m & ->). destruct alias; reflexivity.
  - destruct (at_is_cons _ _ A) as (r & ->).
    assert (Q : (if single then 39%N else 34%N) = 39%N \/ (if single then 39%N else 34%N) = 34%N) by (destruct single; auto).
    pose proof (leaf_inv _ _ _ _ _ (scan_flow_leaf o _ r stats0 single Q V) B) as (_ & _ & T).
    destruct tok as [[]|[]]; cbn in *; try contradiction; reflexivity.
  - pose proof (leaf_inv _ _ _ _ _ (scan_plain_leaf o b st c A) B) as (_ & _ & T).
    destruct tok as [[]|[]]; cbn in *; try contradiction; reflexivity.
  - destruct (at_is_cons _ _ A) as (r & ->).
    assert (PB : plain_byte (if fold then 62%N else 124%N)) by (destruct fold; repeat split; discriminate).
    pose proof (leaf_inv _ _ _ _ _ (scan_block_leaf o _ r st c fold PB) C) as (_ & _ & T & _).
    destruct tok as [[]|[]]; cbn in *; try contradiction; reflexivity.
Qed.

(** ** Rolling *)
Lemma roll_spec c st map c' pre : roll c st map = (c', pre) ->
  pre = [] /\ c' = c \/
  is_block c = true /\ c_flow c' = c_flow c /\ List.length (c_indents c') = S (List.length (c_indents c)) /\
  pre = [mkEntry (Tok (if map then TBlockMappingStart else TBlockSequenceStart)) (sread st)].
Proof.
  unfold roll. destruct (is_block c) eqn:B; [|intros [= <- <-]; auto].
  destruct (indent_ltb _ _); [intros [= <- <-]; right; auto|].
  destruct (negb map && _); [|intros [= <- <-]; auto].
  destruct (c_indents c) eqn:I; [intros [= <- <-]; auto|].
  destruct (ie_map i); intros [= <- <-]; auto. right. cbn. rewrite I. auto.
Qed.
Lemma refresh_same c st : c_flow (refresh_line c st) = c_flow c /\
  List.length (c_indents (refresh_line c st)) = List.length (c_indents c).
Proof.
  unfold refresh_line. destruct (c_indents c) eqn:I; [rewrite I; auto|].
  destruct (_ && _); cbn; rewrite ?I; auto.
Qed.

(** ** Marks never go back before a settled point *)
Definition after_mark (m : nat) (sc : scanner) : Prop :=
  m <= sread (sc_st sc) /\
  match sc_key sc with Some k => kp_allowed (k_possible k) = true -> m <= sread (k_stats k) | None => True end.

Lemma not_possible (k : option key_save) m : key_possible_now k = false ->
  match k with Some k => kp_allowed (k_possible k) = true -> m <= sread (k_stats k) | None => True end.
Proof. destruct k; cbn; [|auto]. intros -> H. discriminate. Qed.

Lemma quiet_after m b sc es b' sc' : quiet b sc es b' sc' -> after_mark m sc ->
  Forall (fun e => m <= e_read e) es /\ after_mark m sc'.
Proof.
  induction 1 as [b sc|b sc b1 st1 ska es b' sc' SK R Q IH|b sc k es b' sc' K Q IH|b sc v es b' sc' Q IH
    |b sc n c es b' sc' C CA SB Q IH]; intros [A1 A2].
  - split; [constructor|split; assumption].
  - apply IH. apply reads_len in R as (L & E & _). split; cbn; [lia|exact A2].
  - apply IH. split; [exact A1|]. apply not_possible, K.
  - apply IH. split; assumption.
  - destruct IH as [I1 I2]; [split; assumption|]. split; [|exact I2].
    apply Forall_app. split; [|exact I1]. unfold ends. apply Forall_forall. intros e H.
    apply repeat_spec in H. subst e. exact A1.
Qed.

Lemma key_after m sc st' key : after_mark m sc -> sread (sc_st sc) <= sread st' -> key_next sc st' key ->
  match key with Some k => kp_allowed (k_possible k) = true -> m <= sread (k_stats k) | None => True end.
Proof.
  intros [A1 A2] L [->|[K|[(r & ->)|(r & ->)]]]; [exact A2|apply not_possible, K| |]; cbn; intros _; lia.
Qed.

Lemma roll_marks c st map c' pre m : roll c st map = (c', pre) -> m <= sread st ->
  Forall (fun e => m <= e_read e) pre.
Proof. intros R L. apply roll_spec in R as [[-> _]|(_ & _ & _ & ->)]; repeat constructor. exact L. Qed.

Lemma kept_next sc st' k : key_kept sc k -> key_next sc st' k.
Proof. unfold key_kept, key_next. tauto. Qed.
Lemma behind_next sc st' k : key_behind sc st' k -> key_next sc st' k.
Proof. unfold key_behind, key_next. tauto. Qed.
Lemma act_after m o b sc es b' sc' : act o b sc es b' sc' -> after_mark m sc ->
  Forall (fun e => m <= e_read e) es /\ after_mark m sc'.
Proof.
  intros H A. pose proof A as [A1 A2]. destruct H.
  - destruct H1 as (_ & _ & _ & L & _). split; [repeat constructor; cbn; lia|].
    split; [cbn; lia|]. eapply key_after; eauto using kept_next.
  - split; [repeat constructor; cbn; lia|]. split; [cbn; lia|].
    apply (key_after m sc (supd (sc_st sc) 1 0 1)); [exact A|cbn; lia|apply behind_next; assumption].
  - split; [repeat constructor; cbn; lia|]. split; [cbn; lia|exact Logic.I].
  - split; [apply Forall_app; split; [eapply roll_marks; eauto|repeat constructor; cbn; lia]|].
    split; [cbn; lia|exact Logic.I].
  - split; [apply Forall_app; split; [eapply roll_marks; eauto|repeat constructor; cbn; lia]|].
    split; [cbn; lia|exact Logic.I].
  - rewrite H0 in A2. specialize (A2 H1).
    split; [apply Forall_app; split; [eapply roll_marks; eauto|repeat constructor; cbn; lia]|].
    split; [cbn; lia|exact Logic.I].
  - split; [apply Forall_app; split; [eapply roll_marks; eauto|repeat constructor; cbn; lia]|].
    split; [cbn; lia|exact Logic.I].
Qed.

Lemma round_after m o b sc es b' sc' : round o b sc es b' sc' -> after_mark m sc ->
  Forall (fun e => m <= e_read e) es /\ after_mark m sc'.
Proof.
  intros H A. destruct H.
  - split; [repeat constructor; apply A|exact A].
  - destruct (quiet_after m _ _ _ _ _ H0 A) as [F A']. split; [|exact A'].
    apply Forall_app. split; [exact F|repeat constructor; apply A'].
  - destruct (quiet_after m _ _ _ _ _ H0 A) as [F A']. destruct (quiet_after m _ _ _ _ _ H3 A') as [F1 A1].
    destruct (quiet_after m _ _ _ _ _ H5 A1) as [F2 A2].
    destruct (act_after m _ _ _ _ _ _ H7 A2) as [F' A'']. split; [rewrite !Forall_app; auto|exact A''].
Qed.

(** ** The invariant *)
Definition not_close (m : marker) : bool := negb (block_close m).
Definition framing (m : marker) : bool :=
  match m with MStreamStart | MStreamEnd => true | _ => false end.

(** No tag is verbatim. *)
Definition exactly (t : str) : Prop := forall n, exact (skipn n t).
(** A token with content was scanned at some place of the text. *)
Definition from_text (o : flags) (t : str) (e : entry) : Prop :=
  neutral (e_marker e) = true ->
  exists n st c k st', is_boundary t n = true /\ content o (skipn n t) st c (e_wrap e) k st' /\
    e_read e = sread st' /\
    (exactly t -> reads t stats0 (skipn n t) st /\ (lazy_mode o = false -> reads t stats0 (skipn (n + k) t) st')).

Definition keyed (t : str) (e : entry) : Prop :=
  e_marker e = MKey -> exists n, (exactly t -> n = e_read e) /\ (explicit_key t n \/ implicit_key t n).
(** A saved key that may still become one lies on the way to the present position,
    or a verbatim tag was just read and the text goes on with [>]. *)
Definition key_place (o : flags) (t : str) (key : option key_save) (b : str) (st : stats) : Prop :=
  match key with
  | Some k => kp_allowed (k_possible k) = true -> exists n, (exactly t -> n = sread (k_stats k)) /\
      (tracks o (skipn n t) (k_stats k) b st \/ at_is b 0 62 = true)
  | None => True
  end.

Definition phase (s : stream_state) : nat := match s with SStart => 0 | SStream => 1 | SDone => 2 end.
Definition framed (s : stream_state) (h : list entry) : Prop :=
  match s with
  | SStart => h = []
  | SStream => exists l, h = mkEntry (Tok TStreamStart) 0 :: l /\ count framing l = 0
  | SDone => exists l e, h = mkEntry (Tok TStreamStart) 0 :: l ++ [e] /\ count framing l = 0 /\
      e_wrap e = Tok TStreamEnd /\ Forall (fun x => e_read x <= e_read e) l
  end.

Definition laying o t h b sc : Prop := exactly t -> lazy_mode o = false -> linv o t h b sc.
Definition levelled o t b sc : Prop := exactly t -> lazy_mode o = false -> lvl b sc.
Record inv (o : flags) (t : str) (h : list entry) (b : str) (sc : scanner) : Prop := {
  i_valid : valid b;
  i_suffix : exists n, b = skipn n t /\ is_boundary t n = true;
  i_pos : sread (sc_st sc) + List.length b <= List.length t;
  i_key : match sc_key sc with
          | Some k => kp_allowed (k_possible k) = true ->
              sread (k_stats k) <= sread (sc_st sc) /\ slines (k_stats k) <= slines (sc_st sc)
          | None => True end;
  i_marks : Forall (fun e => e_read e <= sread (sc_st sc)) h;
  i_block : count block_close h + List.length (c_indents (sc_cxt sc)) = count block_open h;
  i_flow : count flow_close h + c_flow (sc_cxt sc) = count flow_open h;
  i_blocks : closers_ok block_open block_close h;
  i_flows : closers_ok flow_open flow_close h;
  i_frame : framed (sc_state sc) h;
  i_done : sc_state sc = SDone -> b = [] /\ (c_flow (sc_cxt sc) = 0 -> c_indents (sc_cxt sc) = []);
  i_count : count not_close h <= 3 * (List.length t - List.length b) + phase (sc_state sc);
  i_exact : exactly t -> tracks o t stats0 b (sc_st sc);
  i_place : key_place o t (sc_key sc) b (sc_st sc);
  i_keyed : Forall (keyed t) h;
  i_from : Forall (from_text o t) h;
  i_layout : laying o t h b sc
}.

Lemma inv_start o t : valid t -> inv o t [] t scanner0.
Proof.
  intros V. constructor; cbn; auto; try (exact V); try lia.
  - exists 0. auto.
  - intros a x b E. destruct a; discriminate.
  - intros a x b E. destruct a; discriminate.
  - discriminate.
  - intros _. left. constructor.
  - intros _ _. apply linv_start.
Qed.

(** Appending entries. *)
Lemma closers_snoc opens closes l x : closers_ok opens closes l ->
  (closes (e_marker x) = true ->
     Forall (fun y => e_read y <= e_read x) l /\ count closes l < count opens l) ->
  closers_ok opens closes (l ++ [x]).
Proof.
  intros H K a y b E C. apply app_eq_app in E as (r & [[-> E]|[-> E]]).
  - destruct r as [|z r].
    + cbn [app] in E. injection E as -> ->. rewrite app_nil_r in *. apply K, C.
    + cbn [app] in E. injection E as -> E. apply (H a z r eq_refl C).
  - destruct r as [|z r]; cbn [app] in E.
    + injection E as <- E. rewrite app_nil_r. apply K, C.
    + injection E as <- E. symmetry in E. apply app_eq_nil in E as [_ E]. discriminate.
Qed.
Lemma closers_app_none opens closes l es : closers_ok opens closes l ->
  Forall (fun x => closes (e_marker x) = false) es -> closers_ok opens closes (l ++ es).
Proof.
  intros H F. induction es as [|x es IH] using rev_ind; [rewrite app_nil_r; exact H|].
  apply Forall_app in F as [F X]. inversion X; subst. rewrite app_assoc. apply closers_snoc; [auto|congruence].
Qed.

Lemma count_ends f n mark : count f (ends n mark) = if f MBlockEnd then n else 0.
Proof.
  unfold ends. induction n as [|n IH]; cbn [repeat]; [destruct (f MBlockEnd); reflexivity|].
  rewrite count_cons, IH. change (e_marker _) with MBlockEnd. destruct (f MBlockEnd); lia.
Qed.

Lemma closers_ends l n k mark : closers_ok block_open block_close l ->
  Forall (fun e => e_read e <= mark) l -> count block_close l + k = count block_open l -> n <= k ->
  closers_ok block_open block_close (l ++ ends n mark).
Proof.
  intros H F C L. induction n as [|n IH]; [cbn; rewrite app_nil_r; exact H|].
  unfold ends in *. replace (S n) with (n + 1) by lia. rewrite repeat_app, app_assoc. cbn [repeat].
  apply closers_snoc; [apply IH; lia|]. intros _. split.
  - apply Forall_app. split; [exact F|]. apply Forall_forall. intros e I. apply repeat_spec in I. subst e. cbn. lia.
  - fold (ends n mark). rewrite !count_app, !count_ends. cbn. lia.
Qed.

Lemma framed_app h es : framed SStream h -> count framing es = 0 -> framed SStream (h ++ es).
Proof.
  intros (l & -> & C) E. exists (l ++ es). split; [reflexivity|]. rewrite count_app. lia.
Qed.

Lemma possible_le (k : option key_save) (st st' : stats) :
  match k with Some k => kp_allowed (k_possible k) = true ->
    sread (k_stats k) <= sread st /\ slines (k_stats k) <= slines st | None => True end ->
  sread st <= sread st' -> slines st <= slines st' ->
  match k with Some k => kp_allowed (k_possible k) = true ->
    sread (k_stats k) <= sread st' /\ slines (k_stats k) <= slines st' | None => True end.
Proof. destruct k; [|auto]. intros H A B C. specialize (H C). lia. Qed.

Lemma key_next_le sc st' key :
  match sc_key sc with Some k => kp_allowed (k_possible k) = true ->
    sread (k_stats k) <= sread (sc_st sc) /\ slines (k_stats k) <= slines (sc_st sc) | None => True end ->
  sread (sc_st sc) <= sread st' -> slines (sc_st sc) <= slines st' -> key_next sc st' key ->
  match key with Some k => kp_allowed (k_possible k) = true ->
    sread (k_stats k) <= sread st' /\ slines (k_stats k) <= slines st' | None => True end.
Proof.
  intros H A B [->|[K|[(r & ->)|(r & ->)]]].
  - eapply possible_le; eauto.
  - destruct key; [|exact Logic.I]. cbn in K. congruence.
  - cbn. auto.
  - cbn. auto.
Qed.

Lemma suffix_reads t b st b' st' : (exists n, b = skipn n t /\ is_boundary t n = true) ->
  reads b st b' st' -> exists n, b' = skipn n t /\ is_boundary t n = true.
Proof.
  intros (n & -> & B) R. pose proof (reads_boundary _ _ _ _ R) as BB.
  apply reads_len in R as (L & _ & E). exists (n + (List.length (skipn n t) - List.length b')).
  split; [rewrite <- skipn_skipn; exact E|]. apply boundary_add; assumption.
Qed.

Lemma reads_nil st b' st' : reads [] st b' st' -> b' = [].
Proof. intros R. apply reads_len in R as (L & _). destruct b'; [reflexivity|cbn in L; lia]. Qed.
Lemma tracks_trans o a sa b sb c sc : tracks o a sa b sb -> tracks o b sb c sc -> tracks o a sa c sc.
Proof.
  intros [R|[Z ->]] [R'|[Z' ->]]; try (right; auto; fail).
  - left. eapply reads_trans; eauto.
  - right. split; [exact Z|]. eapply reads_nil; eauto.
Qed.
Lemma tracks_here o b st : tracks o b st b st.
Proof. left. constructor. Qed.
Lemma tracks_more o a sa c r sb : tracks o a sa (c :: r) sb -> reads a sa (c :: r) sb.
Proof. intros [R|[_ E]]; [exact R|discriminate]. Qed.
Lemma skips_gt b b' : skips false b b' -> at_is b 0 62 = true -> b' = b.
Proof.
  intros S H. destruct (at_is_cons _ _ H) as (r & ->). inversion S; subst; auto; discriminate.
Qed.
Lemma place_skips o t key b st b' st' : key_place o t key b st -> skips false b b' -> reads b st b' st' ->
  key_place o t key b' st'.
Proof.
  unfold key_place. destruct key; [|auto]. intros H S R A. destruct (H A) as (n & E & [T|G]); exists n; (split; [exact E|]).
  - left. eapply tracks_trans; [exact T|left; exact R].
  - right. rewrite (skips_gt _ _ S G). exact G.
Qed.
Lemma place_none o t key b st : key_possible_now key = false -> key_place o t key b st.
Proof. unfold key_place. destruct key; [|auto]. cbn. congruence. Qed.
Lemma suffix_exact t b st n : b <> [] -> b = skipn n t -> reads t stats0 b st -> n = sread st.
Proof.
  intros NE E R. apply reads_len in R as (L & RE & _). cbn in RE. subst b.
  assert (0 < List.length (skipn n t)) by (destruct (skipn n t); [congruence|cbn; lia]).
  rewrite skipn_length in *. lia.
Qed.
Lemma place_next o t sc b st' b' key : b <> [] -> key_place o t (sc_key sc) b (sc_st sc) ->
  (exists n, b = skipn n t) -> (exists n, b' = skipn n t) ->
  (exactly t -> tracks o t stats0 b (sc_st sc)) -> (exactly t -> tracks o t stats0 b' st') ->
  (exact b -> tracks o b (sc_st sc) b' st') -> (starts_with b (bytes "!<") = true -> at_is b' 0 62 = true) ->
  key_next sc st' key -> (at_is b 0 62 = true -> key_possible_now key = false) -> key_place o t key b' st'.
Proof.
  intros NE P (n & EB) (m & EB') R0 R1 R V KN G.
  destruct (key_possible_now key) eqn:KP; [|apply place_none, KP].
  assert (R' : tracks o b (sc_st sc) b' st' \/ at_is b' 0 62 = true).
  { unfold exact in R. destruct (starts_with b (bytes "!<")); auto. }
  destruct KN as [->|[K|[(r & ->)|(r & ->)]]]; [|congruence| |].
  - unfold key_place in *. destruct (sc_key sc) as [k|]; [|exact Logic.I]. intros A.
    destruct (P A) as (j & EJ & [T|X]); [|specialize (G X); congruence].
    exists j. split; [exact EJ|]. destruct R' as [R'|R']; [left; eapply tracks_trans; eauto|right; exact R'].
  - intros _. exists n. cbn. rewrite <- EB. split; [|exact R']. intros X. apply (suffix_exact t b); [exact NE|exact EB|].
    destruct b as [|c b]; [congruence|]. eapply tracks_more; eauto.
  - intros _. cbn. destruct b' as [|c b'].
    + destruct (lazy_mode o) eqn:LZ.
      * exists (sread st'). split; [reflexivity|]. left. right. auto.
      * exists (List.length t). split.
        -- intros X. destruct (R1 X) as [RR|[Z _]]; [|congruence]. apply reads_len in RR as (_ & RE & _). cbn in RE. lia.
        -- left. rewrite skipn_all. apply tracks_here.
    + exists m. split.
      * intros X. apply (suffix_exact t (c :: b')); [discriminate|exact EB'|]. eapply tracks_more; eauto.
      * left. rewrite <- EB'. apply tracks_here.
Qed.
Lemma same_line s st s' st' : reads s st s' st' -> slines st' <= slines st ->
  forall k, k < List.length s - List.length s' -> is_break (skipn k s) = false.
Proof.
  induction 1 as [s st|s n st s' st' L B BD R IH|s st s' st' B BD R IH]; intros E k K.
  - lia.
  - destruct (Nat.ltb_spec k n); [auto|]. pose proof (reads_len _ _ _ _ R) as (LL & _).
    rewrite skipn_length in LL. specialize (IH E (k - n)). rewrite skipn_length, skipn_skipn in IH.
    replace (n + (k - n)) with k in IH by lia. apply IH. lia.
  - pose proof (reads_lines _ _ _ _ R) as LL. cbn in LL. lia.
Qed.

Lemma quiet_inv o t b sc es b' sc' : quiet b sc es b' sc' ->
  forall h, sc_state sc = SStream -> inv o t h b sc -> inv o t (h ++ es) b' sc'.
Proof.
  induction 1 as [b sc|b sc b1 st1 ska es b' sc' SK R Q IH|b sc k es b' sc' K Q IH|b sc v es b' sc' Q IH
    |b sc n c es b' sc' C CA SB Q IH]; intros h ST I.
  - rewrite app_nil_r. exact I.
  - apply IH; [exact ST|]. pose proof (reads_len _ _ _ _ R) as (L & E & _). pose proof (reads_lines _ _ _ _ R) as LL.
    destruct I. constructor; cbn; auto.
    + eapply reads_valid; eauto.
    + eapply suffix_reads; eauto.
    + lia.
    + eapply possible_le; eauto. lia.
    + eapply Forall_impl; [|exact i_marks0]. cbn. lia.
    + congruence.
    + lia.
    + intros X. eapply tracks_trans; [eauto|left; exact R].
    + eapply place_skips; eauto.
    + intros X Z. apply (linv_ws o t h b sc b1 st1 ska SK R), i_layout0; assumption.
  - apply IH; [exact ST|]. destruct I. constructor; cbn; auto.
    + destruct k; [|exact Logic.I]. cbn in K. congruence.
    + apply place_none, K.
    + intros X Z. apply linv_key; auto.
  - apply IH; [exact ST|]. destruct I. constructor; cbn; auto.
  - rewrite app_assoc. apply IH; [exact ST|]. destruct C as (C1 & C2 & C3 & C4).
    destruct I. constructor; cbn; auto.
    + apply Forall_app. split; [exact i_marks0|]. apply Forall_forall. intros e I. apply repeat_spec in I. subst e. cbn. lia.
    + rewrite !count_app, !count_ends. cbn. rewrite C2, skipn_length. lia.
    + rewrite !count_app, !count_ends. cbn. rewrite C3. lia.
    + eapply closers_ends; eauto.
    + apply closers_app_none; [exact i_flows0|]. apply Forall_forall. intros e I. apply repeat_spec in I. subst e. reflexivity.
    + rewrite ST in *. apply framed_app; [exact i_frame0|]. rewrite count_ends. reflexivity.
    + congruence.
    + rewrite !count_app, !count_ends. cbn. lia.
    + apply Forall_app. split; [auto|]. apply Forall_forall. intros e I. apply repeat_spec in I. subst e.
      intros N. discriminate.
    + apply Forall_app. split; [exact i_from0|]. apply Forall_forall. intros e I. apply repeat_spec in I. subst e.
      intros N. discriminate.
    + intros X Z. apply (linv_ends _ _ _ _ _ _ _ CA SB), i_layout0; assumption.
Qed.

Lemma act_inv_gen o t h b sc es b' st' ska key c' :
  inv o t h b sc -> sc_state sc = SStream ->
  counted b (sc_st sc) b' st' ->
  (exact b -> tracks o b (sc_st sc) b' st') -> (starts_with b (bytes "!<") = true -> at_is b' 0 62 = true) ->
  key_next sc st' key -> (at_is b 0 62 = true -> key_possible_now key = false) -> Forall (keyed t) es ->
  Forall (fun e => e_read e <= sread st') es ->
  count block_close es = 0 -> Forall (fun e => block_close (e_marker e) = false) es ->
  List.length (c_indents c') = List.length (c_indents (sc_cxt sc)) + count block_open es ->
  count flow_close es + c_flow c' = c_flow (sc_cxt sc) + count flow_open es ->
  closers_ok flow_open flow_close (h ++ es) ->
  count framing es = 0 -> count not_close es <= 3 -> Forall (from_text o t) es ->
  laying o t (h ++ es) b' (mkSc (sc_offset sc) (sc_state sc) ska st' key c') ->
  inv o t (h ++ es) b' (mkSc (sc_offset sc) (sc_state sc) ska st' key c').
Proof.
  intros I ST (C1 & C2 & SX & C4 & C5 & C6) EX VB KN KG KD MK NB1 NB2 BL FL FC FR CT FT LAY. destruct I.
  assert (XB : exactly t -> exact b) by (destruct i_suffix0 as (n & -> & _); intros X; apply X).
  constructor; cbn; auto.
  - destruct i_suffix0 as (n & E & B). destruct SX as (m & -> & B'). exists (n + m). subst b.
    split; [apply skipn_skipn|apply boundary_add; assumption].
  - lia.
  - eapply key_next_le; eauto.
  - apply Forall_app. split; [|exact MK]. eapply Forall_impl; [|exact i_marks0]. cbn. lia.
  - rewrite !count_app. lia.
  - rewrite !count_app. lia.
  - apply closers_app_none; assumption.
  - rewrite ST in *. apply framed_app; assumption.
  - congruence.
  - rewrite !count_app. lia.
  - intros X. eapply tracks_trans; [apply i_exact0, X|]. auto.
  - apply (place_next o t sc b); auto.
    + intros ->. cbn in C1. lia.
    + destruct i_suffix0 as (n & E & _). eauto.
    + destruct i_suffix0 as (n & E & _). destruct SX as (m & -> & _). exists (n + m). subst b. apply skipn_skipn.
    + intros X. eapply tracks_trans; [apply i_exact0, X|]. auto.
  - apply Forall_app. auto.
  - apply Forall_app. auto.
Qed.

Lemma neutral_counts m : neutral m = true ->
  block_close m = false /\ block_open m = false /\ flow_close m = false /\ flow_open m = false /\ framing m = false.
Proof. destruct m; cbn; auto; discriminate. Qed.

Lemma char_step c r st : valid (c :: r) -> plainb c ->
  counted (c :: r) st r (supd st 1 0 1) /\
  reads (c :: r) st r (supd st 1 0 1).
Proof.
  intros V P. pose proof (reads_char c r st V P) as R. split; [apply reads_counted; [exact V|exact R|cbn; lia]|exact R].
Qed.


Lemma char_inv o t h c r sc es ska key c' : plainb c -> c <> 33%N -> c <> 62%N ->
  inv o t h (c :: r) sc -> sc_state sc = SStream ->
  key_next sc (supd (sc_st sc) 1 0 1) key -> Forall (keyed t) es ->
  Forall (fun e => e_read e <= S (sread (sc_st sc))) es ->
  count block_close es = 0 -> Forall (fun e => block_close (e_marker e) = false) es ->
  List.length (c_indents c') = List.length (c_indents (sc_cxt sc)) + count block_open es ->
  count flow_close es + c_flow c' = c_flow (sc_cxt sc) + count flow_open es ->
  closers_ok flow_open flow_close (h ++ es) ->
  count framing es = 0 -> count not_close es <= 3 -> Forall (fun e => neutral (e_marker e) = false) es ->
  laying o t (h ++ es) r (mkSc (sc_offset sc) (sc_state sc) ska (supd (sc_st sc) 1 0 1) key c') ->
  inv o t (h ++ es) r (mkSc (sc_offset sc) (sc_state sc) ska (supd (sc_st sc) 1 0 1) key c').
Proof.
  intros P N1 N2 I ST K KD M B1 B2 BL FL FC FR CT NE LAY. destruct (char_step c r (sc_st sc) (i_valid _ _ _ _ _ I) P) as [C R].
  apply (act_inv_gen o t h (c :: r)); auto.
  - intros _. left. exact R.
  - apply not_bang. rewrite at_is_same. apply N.eqb_neq, N1.
  - rewrite at_is_same. intros X. apply N.eqb_eq in X. contradiction.
  - eapply Forall_impl; [|exact M]. cbn. lia.
  - eapply Forall_impl; [|exact NE]. intros e N X. congruence.
Qed.

Lemma roll_counts c st map c' pre last : roll c st map = (c', pre) ->
  neutral (e_marker last) = false -> block_close (e_marker last) = false -> block_open (e_marker last) = false ->
  flow_close (e_marker last) = false -> flow_open (e_marker last) = false -> framing (e_marker last) = false ->
  let es := pre ++ [last] in
  count block_close es = 0 /\ Forall (fun e => block_close (e_marker e) = false) es /\
  List.length (c_indents c') = List.length (c_indents c) + count block_open es /\
  count flow_close es + c_flow c' = c_flow c + count flow_open es /\
  Forall (fun e => flow_close (e_marker e) = false) es /\
  count framing es = 0 /\ count not_close es <= 2 /\ Forall (fun e => neutral (e_marker e) = false) es.
Proof.
  intros R N A B C D E es. subst es. rewrite !count_app.
  assert (L : forall f, count f [last] = if f (e_marker last) then 1 else 0).
  { intros f. rewrite count_cons. change (count f []) with 0. lia. }
  rewrite !L, A, B, C, D, E. idtac.
  apply roll_spec in R as [[-> ->]|(_ & F & I & ->)].
  - cbn [app]. destruct (not_close (e_marker last)); repeat split; auto; cbn; lia.
  - assert (L2 : forall f, count f [mkEntry (Tok (if map then TBlockMappingStart else TBlockSequenceStart)) (sread st)]
        = if f (if map then MBlockMappingStart else MBlockSequenceStart) then 1 else 0).
    { intros f. rewrite count_cons. change (count f []) with 0. destruct map; cbn; lia. }
    rewrite !L2. cbn [app]. rewrite I, F.
    destruct (not_close (e_marker last)); destruct map; repeat split; auto; cbn; lia.
Qed.

Lemma no_keys t es : Forall (fun e => e_marker e <> MKey) es -> Forall (keyed t) es.
Proof. apply Forall_impl. intros e N K. contradiction. Qed.
Lemma key_next_none sc st : key_next sc st None.
Proof. right; left. reflexivity. Qed.
Lemma roll_keyed t c st map c' pre : roll c st map = (c', pre) -> Forall (keyed t) pre.
Proof.
  intros R. apply no_keys. apply roll_spec in R as [[-> _]|(_ & _ & _ & ->)]; [constructor|].
  constructor; [destruct map; discriminate|constructor].
Qed.

Ltac one_mark := first [exact (Forall_nil _) | apply Forall_cons; [cbn; lia|exact (Forall_nil _)]].
Lemma act_inv o t b sc es b' sc' : act o b sc es b' sc' ->
  forall h, fresh sc -> sc_state sc = SStream -> skips false b b -> levelled o t b sc ->
  inv o t h b sc -> inv o t (h ++ es) b' sc'.
Proof.
  intros A h FS ST SB LV I. pose proof (i_valid _ _ _ _ _ I) as V.
  assert (LAY : laying o t (h ++ es) b' sc').
  { intros X Z. apply (linv_act o t h b sc es b' sc' A V); [|exact Z|exact SB|exact FS|exact (LV X Z)|exact (i_layout _ _ _ _ _ I X Z)].
    destruct (i_suffix _ _ _ _ _ I) as (n & -> & _). apply X. }
  destruct A as [tok n st' ska key b' CT EB CN EX VB KN KG CD CE|map r key EB KN|map r c' EB FD|r c1 pre EB BK SK RL
    |r c1 pre EB SK RL|r k c1 pre EB KE AL RL|r c1 pre EB NK SK RL].
  - clear CD. pose proof (content_neutral _ _ _ _ _ _ _ V CT) as N. pose proof (neutral_counts _ N) as (N1 & N2 & N3 & N4 & N5).
    assert (L : forall f, count f [mkEntry tok (sread st')] = if f (maybe_marker tok) then 1 else 0).
    { intros f. rewrite count_cons. change (count f []) with 0. change (e_marker _) with (maybe_marker tok). lia. }
    pose proof CN as (_ & _ & _ & CL1 & _ & CL2).
    apply (act_inv_gen o t h b); auto.
    + apply kept_next, KN.
    + apply no_keys. constructor; [|constructor]. change (e_marker _) with (maybe_marker tok).
      intros X. rewrite X in N. discriminate.
    + rewrite L, N1. reflexivity.
    + rewrite L, N2. lia.
    + rewrite !L, N3, N4. lia.
    + apply closers_app_none; [apply I|]. constructor; [exact N3|constructor].
    + rewrite L, N5. reflexivity.
    + rewrite L. destruct (not_close _); lia.
    + constructor; [|constructor]. intros _. destruct (i_suffix _ _ _ _ _ I) as (m & -> & BD).
      exists m. do 4 eexists. split; [exact BD|]. split; [exact CT|]. split; [reflexivity|].
      intros X. assert (XB : exact (skipn m t)) by apply X.
      assert (NE : skipn m t <> []) by (intros NE; rewrite NE in CN; destruct CN as (CN & _); cbn in CN; lia).
      assert (RT : reads t stats0 (skipn m t) (sc_st sc)).
      { pose proof (i_exact _ _ _ _ _ I X) as [RT|[_ RT]]; [exact RT|contradiction]. }
      split; [exact RT|]. intros LZ. rewrite <- skipn_skipn, <- EB.
      destruct (EX XB) as [R1|[Z _]]; [|congruence]. eapply reads_trans; eauto.
  - subst b. apply (char_inv o t h (if map then 123%N else 91%N)); auto.
    + destruct map; repeat split; discriminate.
    + destruct map; discriminate.
    + destruct map; discriminate.
    + apply behind_next, KN.
    + apply no_keys. constructor; [destruct map; discriminate|constructor].
    + constructor; [cbn; lia|constructor].
    + destruct map; reflexivity.
    + constructor; [destruct map; reflexivity|constructor].
    + destruct map; cbn; lia.
    + destruct map; cbn; lia.
    + apply closers_app_none; [apply I|]. constructor; [destruct map; reflexivity|constructor].
    + destruct map; reflexivity.
    + destruct map; cbn; lia.
    + constructor; [destruct map; reflexivity|constructor].
  - subst b. unfold flow_decrement in FD. destruct (c_flow (sc_cxt sc)) as [|f] eqn:FF; [discriminate|].
    assert (c' = mkCxt f (c_indent (sc_cxt sc)) (c_indents (sc_cxt sc)) (c_started (sc_cxt sc))) as -> by congruence.
    apply (char_inv o t h (if map then 125%N else 93%N)); auto.
    + destruct map; repeat split; discriminate.
    + destruct map; discriminate.
    + destruct map; discriminate.
    + apply key_next_none.
    + apply no_keys. constructor; [destruct map; discriminate|constructor].
    + constructor; [cbn; lia|constructor].
    + destruct map; reflexivity.
    + constructor; [destruct map; reflexivity|constructor].
    + destruct map; cbn; lia.
    + rewrite FF. destruct map; cbn; lia.
    + apply closers_snoc; [apply I|]. intros _. split.
      * eapply Forall_impl; [|apply (i_marks _ _ _ _ _ I)]. cbn. lia.
      * pose proof (i_flow _ _ _ _ _ I). lia.
    + destruct map; reflexivity.
    + destruct map; cbn; lia.
    + constructor; [destruct map; reflexivity|constructor].
  - subst b. pose proof (refresh_same c1 (sc_st sc)) as [RF RI].
    destruct (roll_counts _ _ _ _ _ (mkEntry (Tok TBlockEntry) (sread (sc_st sc) + 1)) RL) as (Z1 & Z2 & Z3 & Z4 & Z5 & Z6 & Z7 & Z8);
      try reflexivity.
    apply (char_inv o t h 45%N); auto; try lia.
    + repeat split; discriminate.
    + apply key_next_none.
    + apply Forall_app. split; [eapply roll_keyed; eauto|]. apply no_keys. constructor; [discriminate|constructor].
    + apply Forall_app. split; [|one_mark].
      apply roll_spec in RL as [[-> _]|(_ & _ & _ & ->)]; one_mark.
    + apply closers_app_none; [apply I|exact Z5].
  - subst b.
    destruct (roll_counts _ _ _ _ _ (mkEntry (Tok TKey) (sread (sc_st sc) + 1)) RL) as (Z1 & Z2 & Z3 & Z4 & Z5 & Z6 & Z7 & Z8);
      try reflexivity.
    apply (char_inv o t h 63%N); auto; try lia.
    + repeat split; discriminate.
    + apply key_next_none.
    + apply Forall_app. split; [eapply roll_keyed; eauto|]. constructor; [|constructor]. intros _.
      destruct (i_suffix _ _ _ _ _ I) as (m & EM & _). exists (m + 1). cbn. split.
      * intros X. f_equal. apply (suffix_exact t (63%N :: r)); [discriminate|exact EM|]. eapply tracks_more, I, X.
      * left. exists r. rewrite Nat.add_sub. symmetry. exact EM.
    + apply Forall_app. split; [|one_mark].
      apply roll_spec in RL as [[-> _]|(_ & _ & _ & ->)]; one_mark.
    + apply closers_app_none; [apply I|exact Z5].
  - subst b. pose proof (i_key _ _ _ _ _ I) as KI. rewrite KE in KI. specialize (KI AL) as [KI1 KI2].
    destruct (roll_counts _ _ _ _ _ (mkEntry (Tok TKey) (sread (k_stats k))) RL) as (Z1 & Z2 & Z3 & Z4 & Z5 & Z6 & Z7 & Z8);
      try reflexivity.
    replace (pre ++ [mkEntry (Tok TKey) (sread (k_stats k)); mkEntry (Tok TValue) (sread (sc_st sc) + 1)])
      with ((pre ++ [mkEntry (Tok TKey) (sread (k_stats k))]) ++ [mkEntry (Tok TValue) (sread (sc_st sc) + 1)]) in *
      by (rewrite <- app_assoc; reflexivity).
    assert (V1 : forall f, count f [mkEntry (Tok TValue) (sread (sc_st sc) + 1)] = if f MValue then 1 else 0).
    { intros f. rewrite count_cons. change (count f []) with 0. cbn. lia. }
    assert (MK : Forall (fun e => e_read e <= S (sread (sc_st sc))) (pre ++ [mkEntry (Tok TKey) (sread (k_stats k))])).
    { apply Forall_app. split; [|one_mark].
      apply roll_spec in RL as [[-> _]|(_ & _ & _ & ->)]; one_mark. }
    assert (KD : Forall (keyed t) (pre ++ [mkEntry (Tok TKey) (sread (k_stats k))])).
    { apply Forall_app. split; [eapply roll_keyed; eauto|]. constructor; [|constructor]. intros _.
      pose proof (i_place _ _ _ _ _ I) as PL. rewrite KE in PL. destruct (PL AL) as (m & EM & [PL'|PL']); [|discriminate].
      clear PL. rename PL' into PL. apply tracks_more in PL. exists m. split; [exact EM|]. right.
      unfold fresh in FS. rewrite KE in FS. specialize (FS AL) as [FS1 FS2].
      pose proof (same_line _ _ _ _ PL FS1) as SL. pose proof (reads_len _ _ _ _ PL) as (L1 & L2 & L3).
      set (s := skipn m t) in *.
      pose proof (firstn_skipn (List.length s - List.length (58%N :: r)) s) as FN. rewrite <- L3 in FN.
      eexists _, r. split; [symmetry; exact FN|]. rewrite FN, firstn_length. split; [lia|].
      intros j J. apply no_break_len, SL. lia. }
    remember (pre ++ [mkEntry (Tok TKey) (sread (k_stats k))]) as pk eqn:PK. clear PK.
    apply (char_inv o t h 58%N); auto; rewrite ?count_app, ?V1; cbn [block_close block_open flow_close flow_open framing not_close negb]; try lia.
    + repeat split; discriminate.
    + apply key_next_none.
    + apply Forall_app. split; [auto|]. apply no_keys. constructor; [discriminate|constructor].
    + apply Forall_app. split; [exact MK|one_mark].
    + apply Forall_app. split; [exact Z2|repeat constructor].
    + apply closers_app_none; [apply I|]. apply Forall_app. split; [exact Z5|repeat constructor].
    + apply Forall_app. split; [exact Z8|repeat constructor].
  - subst b.
    destruct (roll_counts _ _ _ _ _ (mkEntry (Tok TValue) (sread (sc_st sc) + 1)) RL) as (Z1 & Z2 & Z3 & Z4 & Z5 & Z6 & Z7 & Z8);
      try reflexivity.
    apply (char_inv o t h 58%N); auto; try lia.
    + repeat split; discriminate.
    + apply key_next_none.
    + apply Forall_app. split; [eapply roll_keyed; eauto|]. apply no_keys. constructor; [discriminate|constructor].
    + apply Forall_app. split; [|one_mark].
      apply roll_spec in RL as [[-> _]|(_ & _ & _ & ->)]; one_mark.
    + apply closers_app_none; [apply I|exact Z5].
Qed.

Lemma round_inv o t b sc es b' sc' : round o b sc es b' sc' ->
  forall h, inv o t h b sc -> (sc_state sc = SStart -> sread (sc_st sc) = 0) -> inv o t (h ++ es) b' sc'.
Proof.
  intros R h I Z. destruct R as [ST|es sc1 ST Q KN BE|e0 e1 es b1 sc0 sc2 sc1 fs b' sc' ST Q0 SB LV Q1 DS Q F A].
  - pose proof (i_frame _ _ _ _ _ I) as FR. rewrite ST in FR. cbn in FR. subst h. rewrite (Z ST). destruct I.
    constructor; cbn; auto.
    + constructor; [cbn; lia|constructor].
    + apply (closers_snoc _ _ []); [exact i_blocks0|discriminate].
    + apply (closers_snoc _ _ []); [exact i_flows0|discriminate].
    + exists []. auto.
    + discriminate.
    + lia.
    + constructor; [discriminate|constructor].
    + constructor; [discriminate|constructor].
    + intros X Y. apply linv_begin; auto.
  - apply (quiet_inv o t _ _ _ _ _ Q h ST) in I. rewrite app_assoc.
    destruct (quiet_state _ _ _ _ _ Q) as [ST1 _]. rewrite ST in ST1.
    destruct I. rewrite ST1 in *. cbn [phase framed] in *.
    remember (h ++ es) as g eqn:G. clear G.
    assert (L : forall f, count f [mkEntry (Tok TStreamEnd) (sread (sc_st sc1))] = if f MStreamEnd then 1 else 0).
    { intros f. rewrite count_cons. change (count f []) with 0. cbn. lia. }
    constructor; cbn; auto; rewrite ?count_app, ?L; cbn; auto; try lia.
    + apply Forall_app. split; [exact i_marks0|repeat constructor].
    + apply closers_snoc; [exact i_blocks0|discriminate].
    + apply closers_snoc; [exact i_flows0|discriminate].
    + destruct i_frame0 as (l & E & C). exists l, (mkEntry (Tok TStreamEnd) (sread (sc_st sc1))).
      rewrite E in *. inversion i_marks0; subst. auto.
    + intros _. split; [reflexivity|]. intros C. apply BE. unfold is_block, is_flow. rewrite C. reflexivity.
    + apply Forall_app. split; [auto|]. constructor; [discriminate|constructor].
    + apply Forall_app. split; [exact i_from0|repeat constructor]. discriminate.
    + intros X Y. apply linv_finish; auto.
  - destruct (quiet_state _ _ _ _ _ Q0) as [ST0 _]. destruct (quiet_state _ _ _ _ _ Q1) as [ST2 _].
    destruct (quiet_state _ _ _ _ _ Q) as [ST1 _]. rewrite ST in ST0. rewrite ST0 in ST2. rewrite ST2 in ST1.
    pose proof (quiet_inv o t _ _ _ _ _ Q0 h ST I) as I0. pose proof (quiet_inv o t _ _ _ _ _ Q1 _ ST0 I0) as I2.
    pose proof (quiet_inv o t _ _ _ _ _ Q _ ST2 I2) as I1.
    rewrite !app_assoc. apply (act_inv o t _ _ _ _ _ A); [exact F|exact ST1|exact SB| |exact I1].
    intros X Y. pose proof (i_layout _ _ _ _ _ I0 X Y) as L0. pose proof (i_layout _ _ _ _ _ I2 X Y) as L2.
    pose proof (quiet_column o t _ _ _ _ _ Q1 L0 (level_column _ _ _ _ _ L0 LV)) as CL.
    apply (quiet_lvl o t _ _ _ _ _ Q L2). destruct DS as [DS|DS].
    + exact (level_lvl _ _ _ _ _ L2 DS CL).
    + exact (undashed_lvl _ _ _ _ _ _ _ _ L0 L2 DS CL).
Qed.
