(** Flow collections: the rounds of the scanner and the tokens they queue. *)
From Verif Require Export SpecTokens YamlWord YamlAsk.
From Verif Require Import StreamFacts.
From Verif Require SpecNames.
From Verif Require Import SpecYaml.
From Coq Require Import Lia ZifyBool ZifyN ZifyNat.
Open Scope nat_scope.

(** ** Places *)
Lemma reads_col s st s' st' : reads s st s' st' -> slines st = slines st' -> scol st <= scol st'.
Proof.
  induction 1 as [s st|s n st s' st' L B BD R IH|s st s' st' B BD R IH]; intros E; [lia| |].
  - cbn in IH. specialize (IH E). lia.
  - pose proof (reads_lines _ _ _ _ R) as X. cbn in X. lia.
Qed.
Lemma moves_col p p' : moves p p' -> line p = line p' -> column p <= column p'.
Proof. apply reads_col. Qed.
Lemma apart_moves p p' : apart p p' -> moves p p'.
Proof. intros [_ M]. exact M. Qed.

(** ** Tokens in order *)
Definition toks (es : list entry) : list maybe_token := map e_wrap (isort es).
Definition within (a b : nat) (es : list entry) : Prop := Forall (fun e => a <= e_read e <= b) es.
Lemma within_app a b es fs : within a b es -> within a b fs -> within a b (es ++ fs).
Proof. intros. apply Forall_app. auto. Qed.
Lemma within_wide a b a' b' es : within a b es -> a' <= a -> b <= b' -> within a' b' es.
Proof. intros W A B. eapply Forall_impl; [|exact W]. cbn. intros e E. lia. Qed.
Lemma toks_app a b c es fs : within a b es -> within b c fs -> toks (es ++ fs) = toks es ++ toks fs.
Proof.
  intros W1 W2. unfold toks. rewrite (isort_app es fs b).
  - apply map_app.
  - eapply Forall_impl; [|exact W1]. cbn. lia.
  - eapply Forall_impl; [|exact W2]. cbn. lia.
Qed.
Lemma within_ends n m a b : a <= m <= b -> within a b (ends n m).
Proof. intros H. unfold within, ends. apply Forall_forall. intros x X. apply repeat_spec in X. subst. exact H. Qed.
Lemma toks_ends n m : toks (ends n m) = repeat (Tok TBlockEnd) n.
Proof.
  unfold toks. assert (isort (ends n m) = ends n m) as ->.
  { induction n as [|n IH]; [reflexivity|]. unfold ends in *. replace (S n) with (n + 1) by lia. rewrite repeat_app. cbn [repeat].
    rewrite isort_last, IH; [reflexivity|]. apply Forall_forall. intros y Y. apply repeat_spec in Y. subst. cbn. lia. }
  unfold ends. induction n as [|n IH]; [reflexivity|]. cbn. rewrite IH. reflexivity.
Qed.
Lemma ins_front x s r : Forall (fun y => e_read x < e_read y) r -> ins x (s ++ r) = ins x s ++ r.
Proof.
  intros F. induction s as [|y s IH]; cbn [app ins].
  - destruct r as [|y r]; [reflexivity|]. apply Forall_inv in F. cbn [ins app]. destruct (Nat.leb_spec (e_read y) (e_read x)); [lia|reflexivity].
  - destruct (Nat.leb (e_read y) (e_read x)); [|reflexivity]. rewrite IH. reflexivity.
Qed.
Lemma isort_front m a b : Forall (fun y => m < e_read y) a -> Forall (fun y => e_read y <= m) b -> isort (a ++ b) = isort b ++ isort a.
Proof.
  intros FA. induction b as [|x b IH] using rev_ind; intros FB; [rewrite app_nil_r; reflexivity|].
  apply Forall_app in FB as [FB FX]. apply Forall_inv in FX. rewrite app_assoc, !isort_snoc, IH by exact FB. apply ins_front.
  apply Forall_forall. intros y Y. apply (proj1 (isort_in y a)) in Y. rewrite Forall_forall in FA. specialize (FA y Y). cbn in FA. lia.
Qed.
Lemma toks_one t m : toks [mkEntry t m] = [t]. Proof. reflexivity. Qed.

(** ** Settled contexts *)
Definition sets (c : context) (p : place) (c' : context) (j : nat) : Prop :=
  let c1 := unrolled c (snd p) in
  let c2 := dropped (fst c1) (snd p) (text p) in
  fst c2 = c' /\ snd c1 + snd c2 = j.
Definition calm (c : context) (l : nat) : Prop :=
  match c_indents c with e :: _ => ie_zero e && negb (ie_map e) = true -> l <= ie_line e | [] => True end.
Definition firm (c : context) (p : place) : Prop :=
  (is_block c = true -> c_indent c <= column p) /\ calm c (line p).
Lemma calm_le c a b : calm c a -> b <= a -> calm c b.
Proof. unfold calm. destruct (c_indents c) as [|e r]; [trivial|]. intros H L X. specialize (H X). lia. Qed.
Lemma firm_later c p p' : firm c p -> moves p p' -> line p = line p' -> firm c p'.
Proof. intros [A B] M L. pose proof (moves_col _ _ M L). split; [intros X; specialize (A X); lia|rewrite <- L; exact B]. Qed.
Lemma firm_sets c p : firm c p -> sets c p c 0.
Proof.
  intros [A B]. unfold sets. cbv zeta.
  assert (U : unrolled c (snd p) = (c, 0)).
  { unfold unrolled, indent_decrement. destruct (is_block c) eqn:X; [|reflexivity]. specialize (A eq_refl). unfold column in A.
    assert (PI : pop_indents (c_indents c) (c_indent c) (Some (scol (snd p))) = (c_indent c, c_indents c, 0)).
    { destruct (c_indents c); cbn [pop_indents indent_gt]; destruct (Nat.ltb_spec (scol (snd p)) (c_indent c)); try reflexivity; lia. }
    rewrite PI. destruct c; reflexivity. }
  rewrite U. cbn [fst snd].
  assert (D : dropped c (snd p) (text p) = (c, 0)).
  { unfold dropped. unfold calm in B. destruct (c_indents c) as [|e r]; [reflexivity|].
    destruct (ie_zero e && negb (ie_map e)) eqn:Z.
    - specialize (B eq_refl). unfold line in B. assert (Nat.ltb (ie_line e) (slines (snd p)) = false) as -> by lia. reflexivity.
    - rewrite <- (andb_assoc _ (ie_zero e)), Z, andb_false_r. reflexivity. }
  rewrite D. split; reflexivity.
Qed.
Lemma flow_firm c p l : is_flow c = true -> calm c l -> line p <= l -> firm c p.
Proof. intros F C L. split; [unfold is_block; rewrite F; discriminate|eapply calm_le; eauto]. Qed.

(** ** Steps *)
Section Steps.
  Variable o : flags.
  Hypothesis (NE : extendable o = false) (NL : lazy_mode o = false).

  Lemma token_step p p0 ska key c c' j es g : all_ascii (text p) -> apart p p0 -> text p0 <> [] -> timely (snd p0) key -> sets c p0 c' j ->
    (forall n q, dispatch o (state_of n (mkCfg p0 (ska || (line p <? line p0)) (expired (snd p0) key) c') q) = (state_of n g (pushes es q), Ok tt)) ->
    turn o (mkCfg p ska key c) (ends j (offset p0) ++ es) g.
  Proof.
    intros A AP NN TI [E1 E2] D n q. rewrite (settles o p p0 n ska key c q NE A AP TI). cbv zeta in E1, E2 |- *. rewrite E1, E2.
    destruct (text p0) as [|x r] eqn:ET; [congruence|]. cbn [is_empty]. rewrite D, pushes_app. reflexivity.
  Qed.
  Lemma char_some c p p1 : char c p p1 -> text p <> [].
  Proof. intros [E _]. rewrite E. discriminate. Qed.

  Lemma open_step (map : bool) p p0 p1 ska key c c' j : all_ascii (text p) -> apart p p0 -> easy key -> sets c p0 c' j ->
    char (if map then 123 else 91)%N p0 p1 ->
    exists key', easy key' /\
    turn o (mkCfg p ska key c) (ends j (offset p0) ++ [mkEntry (Tok (if map then TFlowMappingStart else TFlowSequenceStart)) (offset p1)])
      (mkCfg p1 true key' (flow_increment c')).
  Proof.
    intros A AP K S CH. pose proof (moves_ascii _ _ (apart_moves _ _ AP) A) as A0.
    exists (saved (ska || (line p <? line p0)) (snd p1) (flow_increment c') (expired (snd p0) key)). split.
    { unfold saved. destruct (_ || _); [reflexivity|apply easy_expired, K]. }
    eapply token_step; eauto using char_some, easy_timely. intros n q. apply dispatch_open; auto using easy_expired.
  Qed.
  Lemma close_step (map : bool) p p0 p1 ska key c c' j : all_ascii (text p) -> apart p p0 -> easy key -> sets c p0 (flow_increment c') j ->
    char (if map then 125 else 93)%N p0 p1 ->
    turn o (mkCfg p ska key c) (ends j (offset p0) ++ [mkEntry (Tok (if map then TFlowMappingEnd else TFlowSequenceEnd)) (offset p1)])
      (mkCfg p1 false None c').
  Proof.
    intros A AP K S CH. pose proof (moves_ascii _ _ (apart_moves _ _ AP) A) as A0.
    eapply token_step; eauto using char_some, easy_timely. intros n q. apply dispatch_close; auto using easy_expired. destruct c'; reflexivity.
  Qed.
  Lemma comma_step p p0 p1 ska key c c' j : all_ascii (text p) -> apart p p0 -> easy key -> sets c p0 c' j -> char 44 p0 p1 ->
    turn o (mkCfg p ska key c) (ends j (offset p0) ++ [mkEntry (Tok TFlowEntry) (offset p1)]) (mkCfg p1 true None c').
  Proof.
    intros A AP K S CH. pose proof (moves_ascii _ _ (apart_moves _ _ AP) A) as A0.
    eapply token_step; eauto using char_some, easy_timely. intros n q. apply dispatch_comma; auto using easy_expired.
  Qed.
  Lemma dash_step p p0 p1 ska key c c' j : all_ascii (text p) -> apart p p0 -> easy key -> sets c p0 c' j -> dash p0 p1 ->
    is_block c' = true -> ska = true \/ line p < line p0 ->
    turn o (mkCfg p ska key c) (ends j (offset p0) ++ snd (roll c' (snd p0) false) ++ [mkEntry (Tok TBlockEntry) (offset p1)])
      (mkCfg p1 true None (refresh_line (fst (roll c' (snd p0) false)) (snd p0))).
  Proof.
    intros A AP K S CH B SK. pose proof (moves_ascii _ _ (apart_moves _ _ AP) A) as A0.
    assert (E : ska || (line p <? line p0) = true).
    { destruct SK as [-> |L]; [reflexivity|]. apply Nat.ltb_lt in L. rewrite L. apply orb_true_r. }
    eapply token_step; eauto using easy_timely; [destruct CH as [CH _]; eapply char_some; exact CH|].
    intros n q. rewrite E, pushes_app. apply dispatch_dash; auto using easy_expired.
  Qed.

  Lemma line_ska (flow : bool) ska p p0 : flow = true \/ ska = true \/ line p < line p0 -> flow = true \/ ska || (line p <? line p0) = true.
  Proof. intros [F|[F|L]]; [left; exact F|right; rewrite F; reflexivity|right]. apply Nat.ltb_lt in L. rewrite L. apply orb_true_r. Qed.
  Lemma question_step p p0 p1 ska key c c' j : all_ascii (text p) -> apart p p0 -> easy key -> sets c p0 c' j -> char 63 p0 p1 ->
    is_flow c' = true \/ loose p1 -> is_flow c' = true \/ ska = true \/ line p < line p0 ->
    turn o (mkCfg p ska key c) (ends j (offset p0) ++ snd (roll c' (snd p0) true) ++ [mkEntry (Tok TKey) (offset p1)])
      (mkCfg p1 (is_block c') None (fst (roll c' (snd p0) true))).
  Proof.
    intros A AP K S CH LO SK. pose proof (moves_ascii _ _ (apart_moves _ _ AP) A) as A0. apply line_ska in SK.
    eapply token_step; eauto using easy_timely; [eapply char_some; exact CH|].
    intros n q. apply dispatch_question; auto using easy_expired.
  Qed.
  Lemma colon_step p p0 p1 ska key c c' j : all_ascii (text p) -> apart p p0 -> easy key -> sets c p0 c' j -> char 58 p0 p1 ->
    is_flow c' = true \/ loose p1 -> is_flow c' = true \/ ska = true \/ line p < line p0 -> key_possible_now (expired (snd p0) key) = false ->
    turn o (mkCfg p ska key c) (ends j (offset p0) ++ snd (roll c' (snd p0) true) ++ [mkEntry (Tok TValue) (offset p1)])
      (mkCfg p1 (is_block c') None (fst (roll c' (snd p0) true))).
  Proof.
    intros A AP K S CH LO SK KP. pose proof (moves_ascii _ _ (apart_moves _ _ AP) A) as A0. apply line_ska in SK.
    eapply token_step; eauto using easy_timely; [eapply char_some; exact CH|].
    intros n q. apply dispatch_colon; auto using easy_expired.
  Qed.

  Lemma scalar_start flow i p v style p' : scalar flow i p v style p' -> text p <> [].
  Proof.
    destruct 1 as [single s v p' E Q M|v p' PS FL DM P M]; [rewrite E; discriminate|]. eapply start_valid; eauto.
  Qed.
  Lemma scalar_moves flow i p v style p' : all_ascii (text p) -> scalar flow i p v style p' -> moves p p' /\ offset p < offset p'.
  Proof.
    intros A SC. assert (L : moves p p' /\ List.length (text p') < List.length (text p)).
    { destruct SC as [single s v p' E Q M|v p' PS FL DM P M]; (split; [exact M|]).
      - destruct (quoted_suffix _ _ _ _ Q) as (a & EA). rewrite E, EA. cbn [List.length]. rewrite app_length. cbn [List.length]. lia.
      - rewrite <- (negb_involutive flow) in PS, P.
        destruct (plain_complete o (text p) (snd p) i (negb flow) v (text p') NE A PS DM P) as (w & st' & _ & _ & _ & _ & POS). lia. }
    destruct L as [M L]. split; [exact M|]. apply reads_len in M. unfold offset, text in *. lia.
  Qed.

  (** A token that may be the beginning of a key. *)
  Definition word (c : context) (p : place) (t : token) (p1 : place) : Prop :=
    text p <> [] /\ moves p p1 /\ offset p < offset p1 /\
    forall (ska : bool) key n q, (ska = true -> easy key) ->
      dispatch o (state_of n (mkCfg p ska key c) q) =
        (state_of n (mkCfg p1 false (saved ska (snd p) c key) c) (q_push q (mkEntry (Tok t) (offset p1))), Ok tt).
  Lemma word_scalar p v style p' i c : all_ascii (text p) -> scalar (is_flow c) i p v style p' ->
    (is_flow c = false -> i = indent_add (cur_indent c) 1) -> exists w, cow_str w = v /\ word c p (TScalar w style) p'.
  Proof.
    intros A SC IN. destruct (dispatch_scalar o NE NL p v style p' i c A SC IN) as (w & EW & D). exists w. split; [exact EW|].
    destruct (scalar_moves _ _ _ _ _ _ A SC) as [M O]. repeat split; eauto using scalar_start.
  Qed.
  Lemma moves_longer p a p' : moves p p' -> text p = a ++ text p' -> a <> [] -> offset p < offset p'.
  Proof.
    intros M E N. apply reads_len in M. unfold offset, text in *. apply (f_equal (@List.length _)) in E. rewrite app_length in E.
    destruct a; [congruence|]. cbn [List.length] in E. lia.
  Qed.
  Lemma word_name alias p a p' c : all_ascii (text p) -> node_name alias p a p' -> word c p (SpecNames.naming alias (Borrowed a)) p'.
  Proof.
    intros A NN. pose proof NN as (E & _ & _ & _ & M). split; [rewrite E; discriminate|]. split; [exact M|]. split.
    - eapply (moves_longer _ (SpecNames.indicator alias :: a)); [exact M|exact E|discriminate].
    - intros ska key n q K. apply dispatch_name; assumption.
  Qed.
  Lemma word_tag (handles : str -> Prop) p h s p' c : all_ascii (text p) -> node_tag handles p h s p' ->
    exists ch cs, cow_str ch = h /\ cow_str cs = s /\ word c p (TTag ch cs) p'.
  Proof.
    intros A NT. destruct (dispatch_tag o NE NL handles p h s p' c A NT) as (ch & cs & EH & ES & D). exists ch, cs. split; [exact EH|]. split; [exact ES|].
    destruct NT as (t & E & _ & _ & FH & _ & M).
    assert (H : exists y r, h = y :: r) by (destruct FH as [(x & -> & _)|(-> & _)]; eexists _, _; reflexivity). destruct H as (y & r & ->).
    split; [rewrite E; discriminate|]. split; [exact M|]. split; [|exact D].
    eapply (moves_longer _ ((y :: r) ++ t)); [exact M|rewrite <- app_assoc; exact E|discriminate].
  Qed.
  Lemma word_step p p0 t p1 ska key c c' j : all_ascii (text p) -> apart p p0 -> easy key -> sets c p0 c' j -> word c' p0 t p1 ->
    turn o (mkCfg p ska key c) (ends j (offset p0) ++ [mkEntry (Tok t) (offset p1)])
      (mkCfg p1 false (saved (ska || (line p <? line p0)) (snd p0) c' (expired (snd p0) key)) c').
  Proof.
    intros A AP K SE (NN & _ & _ & D). eapply token_step; eauto using easy_timely. intros n q. apply D. intros _. apply easy_expired, K.
  Qed.

  (** Such tokens one after another, each at a place that [fits]. *)
  Inductive phrase (c : context) (fits : place -> Prop) : place -> list entry -> place -> Prop :=
  | ph_nil p : phrase c fits p [] p
  | ph_cons p p0 t p1 es p' : apart p p0 -> fits p0 -> word c p0 t p1 -> phrase c fits p1 es p' ->
      phrase c fits p (mkEntry (Tok t) (offset p1) :: es) p'.
  Lemma phrase_app c fits p es p1 fs p' : phrase c fits p es p1 -> phrase c fits p1 fs p' -> phrase c fits p (es ++ fs) p'.
  Proof. induction 1; intros P; [exact P|]. cbn [app]. eapply ph_cons; eauto. Qed.
  Lemma phrase_moves c fits p es p' : phrase c fits p es p' -> moves p p'.
  Proof.
    induction 1 as [p|p p0 t p1 es p' AP FT (_ & M & _) PH IH]; [apply reads_here|].
    eapply moves_trans; [exact (apart_moves _ _ AP)|]. eapply moves_trans; eauto.
  Qed.
  Lemma phrase_within c fits p es p' : phrase c fits p es p' -> Forall (fun e => offset p < e_read e <= offset p') es.
  Proof.
    induction 1 as [p|p p0 t p1 es p' AP FT (_ & M & O & _) PH IH]; [constructor|].
    pose proof (moves_order _ _ (apart_moves _ _ AP)) as [B0 _]. pose proof (moves_order _ _ (phrase_moves _ _ _ _ _ PH)) as [B1 _].
    constructor; [cbn; lia|]. eapply Forall_impl; [|exact IH]. cbn. lia.
  Qed.
  Lemma phrase_toks c fits p es p' : phrase c fits p es p' -> toks es = map e_wrap es.
  Proof.
    induction 1 as [p|p p0 t p1 es p' AP FT (_ & M & O & _) PH IH]; [reflexivity|].
    change (mkEntry (Tok t) (offset p1) :: es) with ([mkEntry (Tok t) (offset p1)] ++ es). rewrite (toks_app (offset p1) (offset p1) (offset p')).
    - rewrite IH. reflexivity.
    - repeat constructor.
    - eapply Forall_impl; [|exact (phrase_within _ _ _ _ _ PH)]. cbn. lia.
  Qed.
  Definition bland (c : context) (p : place) : Prop := is_block c && indent_eqb (cur_indent c) (scol (snd p)) = false.
  Lemma phrase_run c fits p es p' : phrase c fits p es p' -> all_ascii (text p) ->
    (forall q, fits q -> line q <= line p' -> firm c q /\ bland c q) -> forall ska key, easy key ->
    exists ska' key', run o (mkCfg p ska key c) es (mkCfg p' ska' key' c) /\ easy key' /\
      (es = [] -> ska' = ska) /\ (ska = false -> key = None -> line p' = line p -> ska' = false /\ key' = None).
  Proof.
    induction 1 as [p|p p0 t p1 es p' AP FT W PH IH]; intros A FI ska key K; [exists ska, key; repeat split; auto using run_nil|].
    pose proof (apart_moves _ _ AP) as M0. pose proof W as (_ & M1 & _ & _).
    pose proof (moves_order _ _ M1) as [_ L1]. pose proof (moves_order _ _ (phrase_moves _ _ _ _ _ PH)) as [_ L2].
    destruct (FI p0 FT ltac:(lia)) as [FM BL].
    pose proof (word_step p p0 t p1 ska key c c 0 A AP K (firm_sets _ _ FM) W) as ST. cbn [ends repeat app] in ST.
    destruct (IH (moves_ascii _ _ (moves_trans _ _ _ M0 M1) A) FI false (saved (ska || (line p <? line p0)) (snd p0) c (expired (snd p0) key))) as (ska' & key' & R & K' & _ & N').
    { unfold saved. destruct (_ || _); [|apply easy_expired, K]. unfold bland in BL. rewrite BL. reflexivity. }
    exists ska', key'. split; [exact (run_cons o _ _ _ _ _ ST R)|]. split; [exact K'|]. split; [discriminate|].
    intros E1 E2 EL. pose proof (moves_order _ _ M0) as [_ L0]. apply N'; [reflexivity| |lia].
    rewrite E1, E2. assert (line p <? line p0 = false) as -> by lia. reflexivity.
  Qed.
  (** Words behind the first one of a key. *)
  Lemma phrase_hold c fits p es p' k : phrase c fits p es p' -> all_ascii (text p) -> firm c p -> slines (k_stats k) = line p -> line p' = line p ->
    (N.of_nat (offset p') <= N.of_nat (sread (k_stats k)) + 1024)%N ->
    run o (mkCfg p false (Some k) c) es (mkCfg p' false (Some k) c) /\ firm c p'.
  Proof.
    induction 1 as [p|p p0 t p1 es p' AP FT W PH IH]; intros A FM EL EP LE; [split; [apply run_nil|exact FM]|].
    pose proof (apart_moves _ _ AP) as M0. pose proof W as (NN & M1 & _ & D).
    pose proof (moves_order _ _ M0) as [B0 L0]. pose proof (moves_order _ _ M1) as [B1 L1]. pose proof (moves_order _ _ (phrase_moves _ _ _ _ _ PH)) as [B2 L2].
    assert (F0 : firm c p0) by (eapply firm_later; [exact FM|exact M0|lia]).
    assert (F1 : firm c p1) by (eapply firm_later; [exact F0|exact M1|lia]).
    destruct (IH (moves_ascii _ _ (moves_trans _ _ _ M0 M1) A) F1 ltac:(lia) ltac:(lia) LE) as [R F']. split; [|exact F'].
    refine (run_cons o _ [mkEntry (Tok t) (offset p1)] _ _ _ _ R).
    change [mkEntry (Tok t) (offset p1)] with (ends 0 (offset p0) ++ [mkEntry (Tok t) (offset p1)]).
    assert (EX : expired (snd p0) (Some k) = Some k).
    { unfold expired. unfold line, offset in *.
      assert (Nat.ltb (slines (k_stats k)) (slines (snd p0)) || (N.of_nat (sread (k_stats k)) + 1024 <? N.of_nat (sread (snd p0)))%N = false) as -> by lia.
      rewrite andb_false_r. reflexivity. }
    eapply token_step; [exact A|exact AP|exact NN| |apply firm_sets, F0|].
    - cbn [timely]. intros _. unfold line, offset in *. lia.
    - intros n q. rewrite EX. assert (line p <? line p0 = false) as -> by lia. cbn [orb].
      rewrite (D false (Some k) n q ltac:(discriminate)). reflexivity.
  Qed.

  Lemma apart_here p q r : apart p q -> apart q r -> r = q.
  Proof.
    intros [S1 M1] [S2 M2]. assert (ID : forall b s s', skips b s s' -> skips false s' s').
    { induction 1; auto using sk_end, sk_eof. }
    assert (E : text r = text q) by (eapply skips_det; [exact S2|eapply ID; exact S1]).
    destruct q as [s st], r as [s' st']. unfold text, moves in *. cbn [fst snd] in *. subst s'.
    f_equal. eapply reads_det; [exact M2|apply reads_here].
  Qed.

  (** The words of a key and its colon. *)
  Lemma key_phrase p p0 q1 q2 p1 fits ws ska key0 c c' j : all_ascii (text p) -> apart p p0 -> easy key0 -> sets c p0 c' j ->
    firm c' p0 -> phrase c' fits p0 ws q1 -> ws <> [] -> apart q1 q2 -> line q2 = line p0 -> (N.of_nat (offset q2) <= N.of_nat (offset p0) + 1024)%N ->
    char 58 q2 p1 -> (is_flow c' = false -> loose p1) -> ska = true \/ line p < line p0 ->
    let pre := snd (roll c' (snd p0) true) in
    exists es,
    run o (mkCfg p ska key0 c) es (mkCfg p1 false None (fst (roll c' (snd p0) true))) /\
    within (offset p0) (offset p1) es /\
    toks es = repeat (Tok TBlockEnd) j ++ toks pre ++ Tok TKey :: map e_wrap ws ++ [Tok TValue].
  Proof.
    intros A AP K SE F PH NW AP2 L2 LE CH LO SK pre.
    pose proof (apart_moves _ _ AP) as M0. pose proof (moves_ascii _ _ M0 A) as A0.
    pose proof (phrase_within _ _ _ _ _ PH) as WI. pose proof (phrase_toks _ _ _ _ _ PH) as TW.
    destruct PH as [|p0 p0' t r1 ws q1 AP1 FT W PH]; [congruence|]. pose proof (apart_here _ _ _ AP AP1) as ->. clear NW.
    pose proof W as (_ & M1 & O1 & _). pose proof (phrase_moves _ _ _ _ _ PH) as M1'. pose proof (moves_ascii _ _ M1 A0) as A1. pose proof (moves_ascii _ _ M1' A1) as A1'.
    pose proof (apart_moves _ _ AP2) as M2. pose proof (moves_ascii _ _ M2 A1') as A2.
    pose proof (moves_char 58 q2 p1 ltac:(lia) ltac:(lia) ltac:(lia) A2 CH) as M3.
    pose proof (moves_order _ _ M1) as [_ B1]. pose proof (moves_order _ _ M1') as [B1' B1'']. pose proof (moves_order _ _ M2) as [B2 B2'].
    assert (EO : offset p1 = Datatypes.S (offset q2)) by (destruct CH as [_ CH]; unfold offset; rewrite CH; reflexivity).
    assert (EL : line p1 = line q2) by (destruct CH as [_ CH]; unfold line; rewrite CH; reflexivity).
    pose proof (word_step p p0 t r1 ska key0 c c' j A AP K SE W) as ST1.
    assert (E : ska || (line p <? line p0) = true).
    { destruct SK as [-> |L]; [reflexivity|]. apply Nat.ltb_lt in L. rewrite L. apply orb_true_r. }
    rewrite E in ST1. unfold saved in ST1.
    set (k := new_key (snd p0) _) in ST1.
    assert (KA : kp_allowed (k_possible k) = true) by (unfold k, new_key; cbn [k_possible]; destruct (_ && _); reflexivity).
    assert (FR : slines (snd q2) <= slines (k_stats k) /\ (N.of_nat (sread (snd q2)) <= N.of_nat (sread (k_stats k)) + 1024)%N).
    { cbn [k k_stats new_key]. unfold line, offset in *. lia. }
    assert (EX : expired (snd q2) (Some k) = Some k).
    { unfold expired. rewrite KA. cbn [andb].
      assert (Nat.ltb (slines (k_stats k)) (slines (snd q2)) || (N.of_nat (sread (k_stats k)) + 1024 <? N.of_nat (sread (snd q2)))%N = false) as -> by lia. reflexivity. }
    assert (F1 : firm c' r1) by (eapply firm_later; [exact F|exact M1|lia]).
    destruct (phrase_hold c' fits r1 ws q1 k PH A1 F1) as [R2 F2].
    { cbn [k k_stats new_key]. unfold line in *. lia. }
    { lia. }
    { cbn [k k_stats new_key]. unfold offset in *. lia. }
    assert (ST2 : turn o (mkCfg q1 false (Some k) c') (ends 0 (offset q2) ++ pre ++ [mkEntry (Tok TKey) (offset p0); mkEntry (Tok TValue) (offset p1)])
      (mkCfg p1 false None (fst (roll c' (snd p0) true)))).
    { eapply token_step; [exact A1'|exact AP2|eapply char_some; exact CH| |apply firm_sets; eapply firm_later; [exact F2|exact M2|lia]|].
      - cbn [timely]. intros _. exact FR.
      - intros n q. rewrite EX. apply (dispatch_value o NE NL q2 p1 n _ k c' q A2 CH); [|exact KA].
        destruct (is_flow c'); [auto|right; auto]. }
    set (W1 := mkEntry (Tok t) (offset r1) :: ws) in *. set (KV := [mkEntry (Tok TKey) (offset p0)]). set (VV := [mkEntry (Tok TValue) (offset p1)]).
    assert (WP : within (offset p0) (offset p0) pre).
    { unfold pre, roll. destruct (is_block c'); [|constructor]. destruct (indent_ltb _ _); [repeat constructor|].
      cbn [negb andb]. constructor. }
    assert (WK : within (offset p0) (offset p0) (pre ++ KV)) by (apply within_app; [exact WP|repeat constructor]).
    assert (WW : within (offset p0) (offset p1) W1) by (eapply Forall_impl; [|exact WI]; cbn; lia).
    exists (ends j (offset p0) ++ (W1 ++ pre ++ KV) ++ VV). split; [|split].
    - replace (ends j (offset p0) ++ (W1 ++ pre ++ KV) ++ VV) with ((ends j (offset p0) ++ [mkEntry (Tok t) (offset r1)]) ++ ws ++ (ends 0 (offset q2) ++ pre ++ [mkEntry (Tok TKey) (offset p0); mkEntry (Tok TValue) (offset p1)])).
      2:{ change (ends 0 (offset q2)) with (@nil entry). unfold W1, KV, VV. rewrite <- !app_assoc. cbn [app]. rewrite <- ?app_assoc. reflexivity. }
      eapply run_cons; [exact ST1|]. eapply run_app; [exact R2|]. apply run_one, ST2.
    - apply within_app; [apply within_ends; lia|]. apply within_app; [apply within_app; [exact WW|]|repeat constructor; cbn; lia].
      eapply within_wide; [exact WK|lia|lia].
    - rewrite (toks_app (offset p0) (offset p0) (offset p1)); [rewrite toks_ends|apply within_ends; lia|].
      2:{ apply within_app; [apply within_app; [exact WW|eapply within_wide; [exact WK|lia|lia]]|repeat constructor; cbn; lia]. }
      f_equal. rewrite (toks_app (offset p0) (offset p1) (offset p1)); [|apply within_app; [exact WW|eapply within_wide; [exact WK|lia|lia]]|repeat constructor].
      unfold toks at 1. rewrite (isort_front (offset p0)).
      + rewrite map_app. change (map e_wrap (isort W1)) with (toks W1). rewrite TW. change (map e_wrap (isort (pre ++ KV))) with (toks (pre ++ KV)).
        rewrite (toks_app (offset p0) (offset p0) (offset p0)); [|exact WP|repeat constructor]. rewrite <- ?app_assoc. reflexivity.
      + eapply Forall_impl; [|exact WI]. cbn. lia.
      + eapply Forall_impl; [|exact WK]. cbn. lia.
  Qed.
End Steps.

(** ** Flow collections *)
Scheme flow_node_mut := Minimality for flow_node Sort Prop
with flow_body_mut := Minimality for flow_body Sort Prop
with flow_seq_mut := Minimality for flow_seq Sort Prop
with flow_map_mut := Minimality for flow_map Sort Prop
with flow_slot_mut := Minimality for flow_slot Sort Prop
with flow_question_mut := Minimality for flow_question Sort Prop.
Combined Scheme flow_ind from flow_node_mut, flow_body_mut, flow_seq_mut, flow_map_mut, flow_slot_mut, flow_question_mut.

Definition said (evs : list event_data) (e : list deed) : Prop := map shows evs = map Some e.
Lemma said_app a b x y : said a x -> said b y -> said (a ++ b) (x ++ y).
Proof. unfold said. intros A B. rewrite !map_app, A, B. reflexivity. Qed.
Lemma said_cons a b x y : shows a = Some x -> said b y -> said (a :: b) (x :: y).
Proof. unfold said. intros A B. cbn [map]. rewrite A, B. reflexivity. Qed.
Lemma said_nil : said [] []. Proof. reflexivity. Qed.
Lemma ahead_cons t ts : ahead (t :: ts) = Some (maybe_marker t). Proof. reflexivity. Qed.

(** ** Nodes *)
Section Node.
  Variable o : flags.
  Hypothesis (NE : extendable o = false) (NL : lazy_mode o = false).
  Variable handles : str -> Prop.
  Variable known : str -> Prop.
  Hypothesis HK : forall h, handles h -> known h.

  Definition prop_token (m : prop) (t : maybe_token) : Prop :=
    match m with
    | Anchor a => exists w, t = Tok (TAnchor w) /\ cow_str w = a
    | Tag h s => exists ch cs, t = Tok (TTag ch cs) /\ cow_str ch = h /\ cow_str cs = s /\ handles h
    end.
  Lemma prop_word m p p' c : all_ascii (text p) -> prop_at handles m p p' -> exists t, word o c p t p' /\ prop_token m (Tok t).
  Proof.
    intros A P. destruct m as [a|h s]; cbn [prop_at prop_token] in *.
    - eexists. split; [apply (word_name o NE NL false _ _ _ _ A P)|]. exists (Borrowed a). split; reflexivity.
    - destruct (word_tag o NE NL handles p h s p' c A P) as (ch & cs & EH & ES & W). eexists. split; [exact W|]. exists ch, cs.
      destruct P as (t & _ & _ & _ & _ & H & _). auto.
  Qed.
  Lemma prop_list_moves fits p ms p' : prop_list handles fits p ms p' -> moves p p'.
  Proof.
    induction 1 as [p|p p0 m p1 ms p' AP FT PA PL IH]; [apply reads_here|].
    eapply moves_trans; [exact (apart_moves _ _ AP)|]. eapply moves_trans; [|exact IH].
    destruct m as [a|h s]; cbn [prop_at] in PA; [destruct PA as (_ & _ & _ & _ & M)|destruct PA as (t & _ & _ & _ & _ & _ & M)]; exact M.
  Qed.
  Lemma prop_phrase c fits p ms p' : prop_list handles fits p ms p' -> all_ascii (text p) ->
    exists es, phrase o c fits p es p' /\ Forall2 prop_token ms (map e_wrap es).
  Proof.
    induction 1 as [p|p p0 m p1 ms p' AP FT PA PL IH]; intros A; [exists []; split; [apply ph_nil|constructor]|].
    pose proof (moves_ascii _ _ (apart_moves _ _ AP) A) as A0. destruct (prop_word m p0 p1 c A0 PA) as (t & W & PT).
    pose proof W as (_ & M1 & _). destruct (IH (moves_ascii _ _ M1 A0)) as (es & PH & F).
    eexists. split; [eapply ph_cons; eauto|]. cbn [map e_wrap]. constructor; assumption.
  Qed.

  (** Tokens that give the properties of a node. *)
  Definition dressed (ab : about) (pre : list maybe_token) : Prop :=
    exists a g, option_map cow_str a = a_anchor ab /\ option_map tag_shown g = a_tag ab /\
      (forall h s, g = Some (h, s) -> known (cow_str h)) /\
      (forall rest, ahead_not rest [MAnchor; MTag] -> t_props (pre ++ rest) a g rest) /\
      (pre = [] <-> plainly ab) /\ (pre <> [] -> forall rest, ahead_in (pre ++ rest) [MAnchor; MTag]).
  Lemma dress k ms ab pre : gathered k ms ab -> Forall2 prop_token ms pre -> dressed ab pre /\ a_kind ab = k.
  Proof.
    intros G F. split; [|destruct G; reflexivity].
    assert (X : forall (rest : list maybe_token) m, (m = MAnchor \/ m = MTag) -> ahead_not rest [MAnchor; MTag] -> ahead_not rest [m]).
    { intros rest m Y (x & E & N). exists x. split; [exact E|]. cbn [In] in *. intros [Z|[]]. apply N. subst. destruct Y; subst; auto. }
    assert (P1 : forall x y : option str * option (str * str), x <> (None, None) -> x = y -> ~ (fst y = None /\ snd y = None)).
    { intros x [y z] N -> [A B]. cbn in A, B. subst. congruence. }
    destruct G as [|a|h s|a h s|a h s]; repeat match goal with H : Forall2 _ _ _ |- _ => inversion H; clear H; subst end;
      repeat match goal with H : prop_token _ _ |- _ => cbn [prop_token] in H; destruct H as (? & H) end;
      repeat match goal with H : exists _, _ |- _ => destruct H as (? & H) end;
      repeat match goal with H : _ /\ _ |- _ => destruct H end; subst.
    - exists None, None. split; [reflexivity|]. split; [reflexivity|]. split; [discriminate|]. split; [intros rest R; apply tp_none, R|].
      split; [split; [intros _; split; reflexivity|reflexivity]|intros N; congruence].
    - eexists (Some _), None. split; [reflexivity|]. split; [reflexivity|]. split; [discriminate|]. split; [intros rest R; apply tp_anchor, X; auto|].
      split; [split; [discriminate|intros [Y _]; discriminate]|intros _ rest; exists MAnchor; cbn; auto].
    - eexists None, (Some (_, _)). split; [reflexivity|]. split; [reflexivity|]. split; [intros h s E; injection E as <- <-; auto|]. split; [intros rest R; apply tp_tag, X; auto|].
      split; [split; [discriminate|intros [_ Y]; discriminate]|intros _ rest; exists MTag; cbn; auto].
    - eexists (Some _), (Some (_, _)). split; [reflexivity|]. split; [reflexivity|]. split; [intros h s E; injection E as <- <-; auto|]. split; [intros rest R; apply tp_anchor_tag|].
      split; [split; [discriminate|intros [Y _]; discriminate]|intros _ rest; exists MAnchor; cbn; auto].
    - eexists (Some _), (Some (_, _)). split; [reflexivity|]. split; [reflexivity|]. split; [intros h s E; injection E as <- <-; auto|]. split; [intros rest R; apply tp_tag_anchor|].
      split; [split; [discriminate|intros [Y _]; discriminate]|intros _ rest; exists MTag; cbn; auto].
  Qed.
  Lemma props_moves fits k p ab p' : props handles fits k p ab p' -> moves p p'.
  Proof. intros (ms & PL & _). eapply prop_list_moves; eauto. Qed.
  Lemma props_run fits k p ab p' c ska key : props handles fits k p ab p' -> all_ascii (text p) ->
    (forall q, fits q -> line q <= line p' -> firm c q /\ bland c q) -> easy key ->
    exists es ska' key', run o (mkCfg p ska key c) es (mkCfg p' ska' key' c) /\ easy key' /\ within (offset p) (offset p') es /\
      dressed ab (toks es) /\ a_kind ab = k /\ (plainly ab -> ska' = ska /\ p' = p) /\
      (ska = false -> key = None -> line p' = line p -> ska' = false /\ key' = None).
  Proof.
    intros (ms & PL & G) A FI K. destruct (prop_phrase c _ _ _ _ PL A) as (es & PH & F2).
    destruct (phrase_run o NE NL c fits p es p' PH A FI ska key K) as (ska' & key' & R & K' & SK & NK).
    destruct (dress _ _ _ _ G F2) as [D EK]. assert (TO : toks es = map e_wrap es) by (eapply phrase_toks; eassumption). rewrite <- TO in D.
    exists es, ska', key'. split; [exact R|]. split; [exact K'|]. split.
    { eapply Forall_impl; [|eapply phrase_within; eassumption]. cbn. lia. }
    split; [exact D|]. split; [exact EK|]. split; [|exact NK]. intros PA.
    assert (EM : map e_wrap es = []).
    { destruct D as (a & g & _ & _ & _ & _ & I & _). rewrite TO in I. apply I, PA. }
    apply map_eq_nil in EM. subst es. split; [apply SK; reflexivity|]. inversion PH; reflexivity.
  Qed.

  Definition starting (block : bool) (ts : list maybe_token) : Prop := ahead_in ts (MAnchor :: MTag :: MAlias :: starters block).
  Lemma dressed_starting ab pre block ts : dressed ab pre -> starting block ts -> starting block (pre ++ ts).
  Proof.
    intros (a & g & _ & _ & _ & _ & _ & I) S. destruct pre as [|t pre]; [exact S|].
    destruct (I ltac:(discriminate) ts) as (m & E & IN). exists m. split; [exact E|]. cbn [In] in *. intuition.
  Qed.
  Lemma scalar_tag ab (a : option cow) g : option_map cow_str a = a_anchor ab -> option_map tag_shown g = a_tag ab -> (forall h s, g = Some (h, s) -> known (cow_str h)) ->
    exists g', t_tag known true g g' /\ node_about (mkNode a g' (a_kind ab)) = scalar_about ab.
  Proof.
    intros EA EG KN. unfold scalar_about, node_about. cbn [n_kind n_anchor n_tag]. rewrite EA. destruct g as [[h s]|].
    - cbn [option_map] in EG. rewrite <- EG. unfold tag_shown. cbn [fst snd].
      destruct (str_eqb (cow_str h) (bytes "!") && is_empty (cow_str s)) eqn:X.
      + exists None. split; [|reflexivity]. apply tt_dropped; [reflexivity|]. apply andb_prop in X as [X1 X2]. split; [apply BaseFacts.str_eqb_eq, X1|].
        destruct (cow_str s); [reflexivity|discriminate].
      + exists (Some (h, s)). split.
        * apply tt_kept; [|eapply KN; reflexivity]. intros [_ [N1 N2]]. rewrite N1, N2 in X. discriminate.
        * destruct ab as [k aa ag]. cbn in *. rewrite <- EG. reflexivity.
    - exists None. split; [apply tt_none|]. cbn [option_map] in EG. rewrite <- EG. destruct ab as [k aa ag]. cbn in *. congruence.
  Qed.
  Lemma open_tag ab (a : option cow) g : option_map cow_str a = a_anchor ab -> option_map tag_shown g = a_tag ab -> (forall h s, g = Some (h, s) -> known (cow_str h)) ->
    t_tag known false g g /\ node_about (mkNode a g (a_kind ab)) = ab.
  Proof.
    intros EA EG KN. split.
    - destruct g as [[h s]|]; [|apply tt_none]. apply tt_kept; [intros [X _]; discriminate|]. eapply KN. reflexivity.
    - unfold node_about. cbn [n_kind n_anchor n_tag]. rewrite EA, EG. destruct ab; reflexivity.
  Qed.
  Lemma ahead_tok t ts ms : ~ In (maybe_marker t) ms -> ahead_not (t :: ts) ms.
  Proof. intros N. eexists. split; [reflexivity|exact N]. Qed.

  Lemma dress_scalar ab pre w style : dressed ab pre -> exists ev, shows ev = Some (Text (scalar_about ab) (cow_str w) style) /\
    forall b rest, t_node known b (a_kind ab) (pre ++ Tok (TScalar w style) :: rest) [ev] rest.
  Proof.
    intros (a & g & EA & EG & KN & TP & _). destruct (scalar_tag ab a g EA EG KN) as (g' & TT & NA).
    exists (EvScalar (mkNode a g' (a_kind ab)) (Eager w style)). split; [cbn [shows]; rewrite NA; reflexivity|].
    intros b rest. eapply tn_scalar; [|exact TT]. apply TP. apply ahead_tok. cbn. intuition discriminate.
  Qed.
  Lemma dress_empty ab pre : dressed ab pre -> ~ plainly ab -> exists ev, shows ev = Some (nothing ab) /\
    forall b rest, ahead_not rest (MAnchor :: MTag :: starters b) -> t_node known b (a_kind ab) (pre ++ rest) [ev] rest.
  Proof.
    intros (a & g & EA & EG & KN & TP & I & _) NP. destruct (scalar_tag ab a g EA EG KN) as (g' & TT & NA).
    exists (EvScalar (mkNode a g' (a_kind ab)) empty_scalar_like). split.
    { unfold empty_scalar_like. cbn [shows]. rewrite NA. reflexivity. }
    intros b rest (m & E & N). eapply tn_empty; [apply TP| |exists m; split; [exact E|]|exact TT].
    - exists m. split; [exact E|]. cbn [In] in *. tauto.
    - destruct a; [left; discriminate|]. destruct g as [[h s]|]; [right; discriminate|]. destruct NP. split; [symmetry; exact EA|symmetry; exact EG].
    - cbn [In] in N. tauto.
  Qed.
  (** An absent node, with properties or not. *)
  Lemma slot_nothing ab pre stop block rest : dressed ab pre -> ahead_in rest stop ->
    (forall m, In m stop -> ~ In m (MAnchor :: MTag :: starters block)) ->
    exists evs, said evs [nothing ab] /\ t_slot known stop block (a_kind ab) (pre ++ rest) evs rest.
  Proof.
    intros D (m & E & IM) DI. pose proof D as (a & g & EA & EG & _ & _ & I & NX). destruct pre as [|t pre].
    - exists [absent (a_kind ab)]. split.
      + assert (plainly ab) as [P1 P2] by (apply I; reflexivity). clear - P1 P2. unfold said, nothing, scalar_about. rewrite P2. destruct ab as [k x y]. cbn in *. subst. reflexivity.
      + apply ts_absent. exists m. auto.
    - destruct (dress_empty ab (t :: pre) D) as (ev & SH & T); [intros P; apply I in P; discriminate|]. exists [ev]. split; [unfold said; cbn [map]; rewrite SH; reflexivity|].
      apply ts_node.
      + destruct (NX ltac:(discriminate) rest) as (m' & E' & I'). exists m'. split; [exact E'|]. intros X. apply (DI m' X). cbn [In] in *. tauto.
      + apply T. exists m. split; [exact E|]. apply DI, IM.
  Qed.
  Lemma starting_not block ts stop : starting block ts -> (forall m, In m stop -> ~ In m (MAnchor :: MTag :: MAlias :: starters block)) -> ahead_not ts stop.
  Proof. intros (m & E & I) D. exists m. split; [exact E|]. intros X. exact (D m X I). Qed.

  (** A scalar or an alias. *)
  Lemma atom_word i ab p d p' c : all_ascii (text p) -> atom (is_flow c) i ab p d p' -> (is_flow c = false -> i = indent_add (cur_indent c) 1) ->
    exists t, word o c p t p' /\ forall pre, dressed ab pre -> exists ev, shows ev = Some d /\
      forall b rest, starting b (pre ++ Tok t :: rest) /\ t_node known b (a_kind ab) (pre ++ Tok t :: rest) [ev] rest.
  Proof.
    intros A [v style q SC|a q PL NN] IN.
    - destruct (word_scalar o NE NL p v style q i c A SC IN) as (w & EW & W). eexists. split; [exact W|]. intros pre D.
      destruct (dress_scalar ab pre w style D) as (ev & SH & T). rewrite EW in SH. exists ev. split; [exact SH|]. intros b rest. split; [|apply T].
      eapply dressed_starting; [exact D|]. exists MScalar. cbn. auto 10.
    - eexists. split; [exact (word_name o NE NL true _ _ _ c A NN)|]. intros pre D. destruct D as (x & g & _ & _ & _ & _ & I & _).
      apply I in PL. subst pre. exists (EvAlias (Borrowed a)). split; [reflexivity|]. intros b rest. split; [exists MAlias; cbn; auto|apply tn_alias].
  Qed.
  Definition keyed (kt : list maybe_token) (kev : event_data) : Prop :=
    forall b rest, starting b (kt ++ rest) /\ t_node known b Key (kt ++ rest) [kev] rest.
  Lemma key_moves flow i p d p1 : all_ascii (text p) -> key handles flow i p d p1 -> moves p p1 /\ offset p < offset p1 /\ line p1 = line p.
  Proof.
    intros A (ab & q1 & q2 & q3 & q4 & PR & AP & AT & AP2 & L & _ & CH & _).
    pose proof (props_moves _ _ _ _ _ PR) as M1. pose proof (moves_ascii _ _ M1 A) as A1. pose proof (apart_moves _ _ AP) as M2. pose proof (moves_ascii _ _ M2 A1) as A2.
    assert (M3 : moves q2 q3).
    { destruct AT as [v style q SC|a q PL NN]; [|destruct NN as (_ & _ & _ & _ & M); exact M]. eapply scalar_moves; eauto. }
    pose proof (moves_ascii _ _ M3 A2) as A3. pose proof (apart_moves _ _ AP2) as M4. pose proof (moves_ascii _ _ M4 A3) as A4.
    pose proof (moves_char 58 q4 p1 ltac:(lia) ltac:(lia) ltac:(lia) A4 CH) as M5.
    assert (M : moves p q4) by eauto using moves_trans. pose proof (moves_order _ _ M) as [B _]. destruct CH as [_ CH].
    split; [eauto using moves_trans|]. unfold offset, line in *. rewrite CH. cbn. lia.
  Qed.
  Lemma key_run p p0 d p1 i ska key0 c c' j : all_ascii (text p) -> apart p p0 -> easy key0 -> sets c p0 c' j ->
    firm c' p0 -> key handles (is_flow c') i p0 d p1 -> (is_flow c' = false -> i = indent_add (cur_indent c') 1) ->
    ska = true \/ line p < line p0 ->
    exists kt kev es, shows kev = Some d /\ keyed kt kev /\
    run o (mkCfg p ska key0 c) es (mkCfg p1 false None (fst (roll c' (snd p0) true))) /\
    within (offset p0) (offset p1) es /\
    toks es = repeat (Tok TBlockEnd) j ++ toks (snd (roll c' (snd p0) true)) ++ Tok TKey :: kt ++ [Tok TValue].
  Proof.
    intros A AP K SE F KY IN SK. pose proof (moves_ascii _ _ (apart_moves _ _ AP) A) as A0.
    destruct KY as (ab & q1 & q2 & q3 & q4 & PR & AP1 & AT & AP2 & L & LE & CH & LO).
    pose proof (props_moves _ _ _ _ _ PR) as M1. pose proof (moves_ascii _ _ M1 A0) as A1. pose proof (moves_ascii _ _ (apart_moves _ _ AP1) A1) as A2.
    destruct PR as (ms & PL & G). destruct (prop_phrase c' _ _ _ _ PL A0) as (es & PH & F2). destruct (dress _ _ _ _ G F2) as [D EK].
    destruct (atom_word i ab q2 d q3 c' A2 AT IN) as (t & W & T). destruct (T _ D) as (kev & SH & TN).
    assert (PH2 : phrase o c' anywhere p0 (es ++ [mkEntry (Tok t) (offset q3)]) q3) by (eapply phrase_app; [exact PH|exact (ph_cons o c' anywhere q1 q2 t q3 [] q3 AP1 Logic.I W (ph_nil _ _ _ _))]).
    destruct (key_phrase o NE NL p p0 q3 q4 p1 anywhere _ ska key0 c c' j A AP K SE F PH2 ltac:(destruct es; discriminate) AP2 L LE CH LO SK) as (fs & R & WI & TO).
    exists (map e_wrap es ++ [Tok t]), kev, fs. split; [exact SH|]. split.
    { intros b rest. rewrite <- app_assoc. rewrite <- EK. apply TN. }
    split; [exact R|]. split; [exact WI|]. rewrite TO, map_app. reflexivity.
  Qed.
  (** The tokens of a collection behind those of its properties. *)
  Lemma dress_seq ab pre evs e : dressed ab pre -> said evs e -> exists ev, said (ev :: evs) (OpenSeq ab :: e) /\
    (forall b ts rest, t_flow_entries known true ts evs rest -> t_node known b (a_kind ab) (pre ++ Tok TFlowSequenceStart :: ts) (ev :: evs) rest) /\
    (forall ts rest, t_block_entries known ts evs rest -> t_node known true (a_kind ab) (pre ++ Tok TBlockSequenceStart :: ts) (ev :: evs) rest).
  Proof.
    intros (a & g & EA & EG & KN & TP & _) SA. destruct (open_tag ab a g EA EG KN) as [TT NA].
    exists (EvSequenceStart (mkNode a g (a_kind ab))). split; [apply said_cons; [cbn [shows]; rewrite NA; reflexivity|exact SA]|]. split.
    - intros b ts rest T. eapply tn_flow_sequence; [|exact TT|exact T]. apply TP, ahead_tok. cbn. intuition discriminate.
    - intros ts rest T. eapply tn_block_sequence; [|exact TT|exact T]. apply TP, ahead_tok. cbn. intuition discriminate.
  Qed.
  Lemma dress_map ab pre evs e : dressed ab pre -> said evs e -> exists ev, said (ev :: evs) (OpenMap ab :: e) /\
    (forall b ts rest, t_flow_pairs known true ts evs rest -> t_node known b (a_kind ab) (pre ++ Tok TFlowMappingStart :: ts) (ev :: evs) rest) /\
    (forall ts rest, t_block_pairs known ts evs rest -> t_node known true (a_kind ab) (pre ++ Tok TBlockMappingStart :: ts) (ev :: evs) rest).
  Proof.
    intros (a & g & EA & EG & KN & TP & _) SA. destruct (open_tag ab a g EA EG KN) as [TT NA].
    exists (EvMappingStart (mkNode a g (a_kind ab))). split; [apply said_cons; [cbn [shows]; rewrite NA; reflexivity|exact SA]|]. split.
    - intros b ts rest T. eapply tn_flow_mapping; [|exact TT|exact T]. apply TP, ahead_tok. cbn. intuition discriminate.
    - intros ts rest T. eapply tn_block_mapping; [|exact TT|exact T]. apply TP, ahead_tok. cbn. intuition discriminate.
  Qed.
End Node.

Section Flow.
  Variable o : flags.
  Hypothesis (NE : extendable o = false) (NL : lazy_mode o = false).
  Variable handles : str -> Prop.
  Variable known : str -> Prop.
  Hypothesis HK : forall h, handles h -> known h.

  Definition flow_stops : list marker := [MFlowEntry; MFlowSequenceEnd; MFlowMappingEnd; MValue].
  (** No key is saved behind a collection, nor behind a key on the line of [?]. *)
  Definition unsaved (p : place) (e : list deed) (p' : place) (ska : bool) (key key' : option key_save) : Prop :=
    closed e \/ line p' = line p -> ska = false -> key = None -> key' = None.
  Definition F_node (k : node_kind) (p : place) (e : list deed) (p' : place) : Prop :=
    all_ascii (text p) -> moves p p' /\ forall ska key c, is_flow c = true -> calm c (line p') -> easy key ->
      exists es ska' key', run o (mkCfg p ska key c) es (mkCfg p' ska' key' c) /\ easy key' /\ unsaved p e p' ska key key' /\
        within (offset p) (offset p') es /\
        forall rest, ahead_in rest flow_stops -> starting false (toks es ++ rest) /\
          exists evs, said evs e /\ t_node known false k (toks es ++ rest) evs rest.
  Definition F_body (ab : about) (p : place) (e : list deed) (p' : place) : Prop :=
    all_ascii (text p) -> moves p p' /\ forall ska key c, is_flow c = true -> calm c (line p') -> easy key ->
      exists es key', run o (mkCfg p ska key c) es (mkCfg p' false key' c) /\ easy key' /\
        (closed e \/ line p' = line p /\ ska = false /\ key = None -> key' = None) /\
        within (offset p) (offset p') es /\
        forall pre rest, dressed known ab pre -> starting false (pre ++ toks es ++ rest) /\
          exists evs, said evs e /\ t_node known false (a_kind ab) (pre ++ toks es ++ rest) evs rest.
  Definition F_seq (f : bool) (p : place) (e : list deed) (p' : place) : Prop :=
    all_ascii (text p) -> moves p p' /\ forall ska key c, (f = true -> ska = true) -> calm c (line p') -> easy key ->
      exists es, run o (mkCfg p ska key (flow_increment c)) es (mkCfg p' false None c) /\
        within (offset p) (offset p') es /\
        forall rest, (f = false -> ahead_in (toks es ++ rest) [MFlowEntry; MFlowSequenceEnd]) /\
          exists evs, said evs e /\
            if f then t_flow_entries known true (toks es ++ rest) evs rest /\ t_flow_entries known false (Tok TFlowEntry :: toks es ++ rest) evs rest
            else t_flow_entries known false (toks es ++ rest) evs rest.
  Definition F_map (f : bool) (p : place) (e : list deed) (p' : place) : Prop :=
    all_ascii (text p) -> moves p p' /\ forall ska key c, (f = true -> ska = true) -> calm c (line p') -> easy key ->
      exists es, run o (mkCfg p ska key (flow_increment c)) es (mkCfg p' false None c) /\
        within (offset p) (offset p') es /\
        forall rest, (f = false -> ahead_in (toks es ++ rest) [MFlowEntry; MFlowMappingEnd]) /\
          exists evs, said evs e /\
            if f then t_flow_pairs known true (toks es ++ rest) evs rest /\ t_flow_pairs known false (Tok TFlowEntry :: toks es ++ rest) evs rest
            else t_flow_pairs known false (toks es ++ rest) evs rest.
  Definition F_slot (k : node_kind) (p : place) (e : list deed) (p' : place) : Prop :=
    all_ascii (text p) -> moves p p' /\ forall ska key c, is_flow c = true -> calm c (line p') -> easy key ->
      exists es ska' key', run o (mkCfg p ska key c) es (mkCfg p' ska' key' c) /\ easy key' /\ unsaved p e p' ska key key' /\
        within (offset p) (offset p') es /\
        forall stop rest, incl stop flow_stops -> ahead_in rest stop ->
          exists evs, said evs e /\ t_slot known stop false k (toks es ++ rest) evs rest.
  Definition F_question (p : place) (e : list deed) (p' : place) : Prop :=
    all_ascii (text p) -> moves p p' /\ forall c, is_flow c = true -> calm c (line p') ->
      exists es ska' key', run o (mkCfg p false None c) es (mkCfg p' ska' key' c) /\ easy key' /\
        within (offset p) (offset p') es /\
        forall stop rest, incl stop [MFlowEntry; MFlowSequenceEnd; MFlowMappingEnd] -> ahead_in rest stop ->
          exists kevs vevs rest1, said (kevs ++ vevs) e /\
            t_slot known (MValue :: stop) false Key (toks es ++ rest) kevs rest1 /\
            t_value known stop false rest1 vevs rest.

  Lemma char_moves c p p' : all_ascii (text p) -> char c p p' -> (c < 128)%N -> c <> 10%N -> c <> 13%N ->
    moves p p' /\ offset p' = S (offset p) /\ line p' = line p.
  Proof.
    intros A CH C1 C2 C3. split; [eapply moves_char; eauto|]. destruct CH as [_ CH]. unfold offset, line. rewrite CH. split; reflexivity.
  Qed.
  Lemma flow_open (map : bool) p p0 p1 ska key c c' j :
    all_ascii (text p) -> apart p p0 -> easy key -> sets c p0 c' j -> char (if map then 123 else 91)%N p0 p1 ->
    exists key', easy key' /\ moves p p1 /\ all_ascii (text p1) /\ offset p0 < offset p1 /\ offset p <= offset p0 /\ line p1 = line p0 /\
    (forall g es, run o (mkCfg p1 true key' (flow_increment c')) es g -> moves p1 (g_place g) ->
       within (offset p1) (offset (g_place g)) es ->
       exists fs, run o (mkCfg p ska key c) fs g /\ within (offset p0) (offset (g_place g)) fs /\
         toks fs = repeat (Tok TBlockEnd) j ++ Tok (if map then TFlowMappingStart else TFlowSequenceStart) :: toks es).
  Proof.
    intros A AP K SE CH. pose proof (apart_moves _ _ AP) as M0. pose proof (moves_ascii _ _ M0 A) as A0.
    destruct (open_step o NE NL map p p0 p1 ska key c c' j A AP K SE CH) as (key' & K' & ST).
    destruct (char_moves _ _ _ A0 CH ltac:(destruct map; lia) ltac:(destruct map; lia) ltac:(destruct map; lia)) as (M1 & EO & EL).
    pose proof (moves_order _ _ M0) as [B0 _].
    exists key'. split; [exact K'|]. split; [eauto using moves_trans|]. split; [eapply moves_ascii; eauto|]. split; [lia|]. split; [exact B0|]. split; [exact EL|].
    intros g es R M W. pose proof (moves_order _ _ M) as [LE _].
    eexists. split; [eapply run_cons; [exact ST|exact R]|]. split.
    - apply within_app; [apply within_app; [apply within_ends; lia|]|]; [repeat constructor; cbn; lia|]. eapply within_wide; [exact W|lia|lia].
    - rewrite (toks_app (offset p0) (offset p1) (offset (g_place g))).
      + rewrite (toks_app (offset p0) (offset p0) (offset p1)); [rewrite toks_ends, toks_one, <- app_assoc; reflexivity|apply within_ends; lia|repeat constructor; cbn; lia].
      + apply within_app; [apply within_ends; lia|repeat constructor; cbn; lia].
      + exact W.
  Qed.

  (** A step, then more. *)
  Lemma chain p1 a b es g es1 fs g' : turn o g es g' -> g_place g' = p1 -> within a (offset p1) es ->
    run o g' fs es1 -> within (offset p1) b fs -> a <= offset p1 -> offset p1 <= b ->
    run o g (es ++ fs) es1 /\ within a b (es ++ fs) /\ toks (es ++ fs) = toks es ++ toks fs.
  Proof.
    intros T E W1 R W2 L1 L2. split; [eapply run_cons; eauto|]. split.
    - apply within_app; eapply within_wide; eauto; lia.
    - eapply toks_app; eauto.
  Qed.
  Lemma run_chain m a b es g es1 fs g' : run o g es g' -> within a m es ->
    run o g' fs es1 -> within m b fs -> a <= m -> m <= b ->
    run o g (es ++ fs) es1 /\ within a b (es ++ fs) /\ toks (es ++ fs) = toks es ++ toks fs.
  Proof.
    intros R1 W1 R2 W2 L1 L2. split; [eapply run_app; eauto|]. split.
    - apply within_app; eapply within_wide; eauto; lia.
    - eapply toks_app; eauto.
  Qed.
  Lemma disjoint_stop stop : incl stop flow_stops -> forall m, In m stop -> ~ In m (MAnchor :: MTag :: MAlias :: starters false).
  Proof. intros I m X Y. apply I in X. cbn in X, Y. intuition congruence. Qed.
  Lemma flow_fits c l : is_flow c = true -> calm c l -> forall q, anywhere q -> line q <= l -> firm c q /\ bland c q.
  Proof.
    intros F C q _ L. split; [eapply flow_firm; eauto|]. unfold bland, is_block. rewrite F. reflexivity.
  Qed.

  Lemma open_one d : d <> CloseSeq -> d <> CloseMap -> ~ closed [d].
  Proof.
    intros N1 N2 (x & [E|E]); destruct x as [|y x]; cbn [app] in E; injection E as E; try congruence; destruct x; discriminate.
  Qed.
  Lemma incl_app_stop stop : incl stop [MFlowEntry; MFlowSequenceEnd; MFlowMappingEnd] -> incl (MValue :: stop) flow_stops.
  Proof. intros I m [E|X]; [subst; cbn; auto|]. apply I in X. cbn in *. tauto. Qed.
  Lemma flow_all : (forall k p e p', flow_node handles k p e p' -> F_node k p e p') /\
    (forall ab p e p', flow_body handles ab p e p' -> F_body ab p e p') /\
    (forall f p e p', flow_seq handles f p e p' -> F_seq f p e p') /\
    (forall f p e p', flow_map handles f p e p' -> F_map f p e p') /\
    (forall k p e p', flow_slot handles k p e p' -> F_slot k p e p') /\
    (forall p e p', flow_question handles p e p' -> F_question p e p').
  Proof.
    apply flow_ind.
    - (* properties and content *)
      intros k ab p p1 e p' PR FB IH A. pose proof (props_moves _ _ _ _ _ _ PR) as M1. pose proof (moves_ascii _ _ M1 A) as A1.
      destruct (IH A1) as [M2 IH']. pose proof (moves_order _ _ M1) as [B1 B1']. pose proof (moves_order _ _ M2) as [B2 B2'].
      split; [eauto using moves_trans|]. intros ska key c F C K.
      destruct (props_run o NE NL handles known HK anywhere k p ab p1 c ska key PR A (flow_fits _ _ F (calm_le _ _ _ C B2')) K) as (es & ska1 & key1 & R1 & K1 & W1 & D & EK & _ & N1).
      destruct (IH' ska1 key1 c F C K1) as (fs & key2 & R2 & K2 & N2 & W2 & T2).
      destruct (run_chain (offset p1) (offset p) (offset p') _ _ _ _ _ R1 W1 R2 W2 B1 B2) as (R & W & T).
      eexists _, _, _. split; [exact R|]. split; [exact K2|]. split.
      { intros [CL|EL] E1 E2; apply N2; [left; exact CL|right]. destruct (N1 E1 E2 ltac:(lia)) as [X Y]. split; [lia|]. split; assumption. }
      split; [exact W|]. intros rest _. rewrite T, <- app_assoc, <- EK. apply T2, D.
    - (* properties alone *)
      intros k ab p p' PR NP _ A. pose proof (props_moves _ _ _ _ _ _ PR) as M1. split; [exact M1|]. intros ska key c F C K.
      destruct (props_run o NE NL handles known HK anywhere k p ab p' c ska key PR A (flow_fits _ _ F C) K) as (es & ska1 & key1 & R1 & K1 & W1 & D & EK & _ & N1).
      exists es, ska1, key1. split; [exact R1|]. split; [exact K1|]. split.
      { intros [CL|EL] E1 E2; [destruct (open_one (nothing ab) ltac:(discriminate) ltac:(discriminate) CL)|]. apply (N1 E1 E2 EL). }
      split; [exact W1|]. intros rest (m & E & IM). split.
      + pose proof D as (a & g & _ & _ & _ & _ & I & NX). destruct (NX ltac:(intros X; apply NP, I, X) rest) as (m' & E' & I'). exists m'. split; [exact E'|]. cbn [In] in *. tauto.
      + destruct (dress_empty known ab _ D NP) as (ev & SH & TN). exists [ev]. split; [unfold said; cbn [map]; rewrite SH; reflexivity|].
        rewrite <- EK. apply TN. exists m. split; [exact E|]. unfold flow_stops in IM. cbn [In starters app] in *. intuition congruence.
    - (* scalar or alias *)
      intros ab p p0 d p' AP AT A. pose proof (apart_moves _ _ AP) as M0. pose proof (moves_ascii _ _ M0 A) as A0.
      assert (M1 : moves p0 p').
      { destruct (atom_word o NE NL known 0 ab p0 d p' (mkCxt 1 0 [] false) A0 AT ltac:(discriminate)) as (t & (_ & M1 & _) & _). exact M1. }
      pose proof (moves_order _ _ M0) as [B0 _]. pose proof (moves_order _ _ M1) as [_ B1].
      split; [eauto using moves_trans|]. intros ska key c F C K.
      assert (FI : firm c p0) by (eapply flow_firm; eauto).
      rewrite <- F in AT. destruct (atom_word o NE NL known 0 ab p0 d p' c A0 AT) as (t & W & T); [rewrite F; discriminate|].
      pose proof W as (_ & _ & O1 & _).
      pose proof (word_step o NE p p0 t p' ska key c c 0 A AP K (firm_sets _ _ FI) W) as ST.
      eexists _, _. split; [apply run_one; exact ST|]. split.
      { unfold saved. destruct (_ || _); [|apply easy_expired, K]. unfold is_block. rewrite F. reflexivity. }
      split.
      { intros [CL|(EL & E1 & E2)]; [destruct (open_one d) as []; [| |exact CL]; destruct AT; discriminate|].
        rewrite E1, E2. pose proof (moves_order _ _ M0) as [_ L0]. assert (line p <? line p0 = false) as -> by lia. reflexivity. }
      split; [repeat constructor; cbn; lia|]. intros pre rest D. destruct (T pre D) as (ev & SH & TN). destruct (TN false rest) as [ST1 TN1].
      change (toks (_ ++ [_])) with [Tok t]. cbn [app]. split; [exact ST1|]. exists [ev]. split; [unfold said; cbn [map]; rewrite SH; reflexivity|exact TN1].
    - (* sequence *)
      intros ab p p0 p1 e p' AP CH FS IH A.
      pose proof (apart_moves _ _ AP) as M0. pose proof (moves_ascii _ _ M0 A) as A0. pose proof (moves_order _ _ M0) as [B0 B0'].
      destruct (char_moves _ _ _ A0 CH ltac:(lia) ltac:(lia) ltac:(lia)) as (M1 & EO & EL). pose proof (moves_ascii _ _ M1 A0) as A1.
      destruct (IH A1) as [M2 IH']. pose proof (moves_order _ _ M2) as [B2 B2'].
      split; [eauto using moves_trans|]. intros ska key c F C K.
      assert (FI : firm c p0) by (eapply flow_firm; eauto; lia).
      destruct (flow_open false p p0 p1 ska key c c 0 A AP K (firm_sets _ _ FI) CH) as (key' & K' & _ & _ & _ & _ & _ & NEXT).
      destruct (IH' true key' c (fun _ => eq_refl) C K') as (es & R & W & T).
      destruct (NEXT _ _ R M2 W) as (fs & R' & W' & T').
      exists fs, None. split; [exact R'|]. split; [exact Logic.I|]. split; [reflexivity|]. split; [eapply within_wide; [exact W'|lia|cbn; lia]|].
      intros pre rest D. rewrite T'. cbn [repeat app]. split; [eapply dressed_starting; [exact D|]; exists MFlowSequenceStart; cbn; auto 10|].
      destruct (T rest) as [_ (evs & SA & (TE & _))].
      destruct (dress_seq known ab pre evs e D SA) as (ev & SA' & TN & _). exists (ev :: evs). split; [exact SA'|apply TN, TE].
    - (* mapping *)
      intros ab p p0 p1 e p' AP CH FS IH A.
      pose proof (apart_moves _ _ AP) as M0. pose proof (moves_ascii _ _ M0 A) as A0. pose proof (moves_order _ _ M0) as [B0 B0'].
      destruct (char_moves _ _ _ A0 CH ltac:(lia) ltac:(lia) ltac:(lia)) as (M1 & EO & EL). pose proof (moves_ascii _ _ M1 A0) as A1.
      destruct (IH A1) as [M2 IH']. pose proof (moves_order _ _ M2) as [B2 B2'].
      split; [eauto using moves_trans|]. intros ska key c F C K.
      assert (FI : firm c p0) by (eapply flow_firm; eauto; lia).
      destruct (flow_open true p p0 p1 ska key c c 0 A AP K (firm_sets _ _ FI) CH) as (key' & K' & _ & _ & _ & _ & _ & NEXT).
      destruct (IH' true key' c (fun _ => eq_refl) C K') as (es & R & W & T).
      destruct (NEXT _ _ R M2 W) as (fs & R' & W' & T').
      exists fs, None. split; [exact R'|]. split; [exact Logic.I|]. split; [reflexivity|]. split; [eapply within_wide; [exact W'|lia|cbn; lia]|].
      intros pre rest D. rewrite T'. cbn [repeat app]. split; [eapply dressed_starting; [exact D|]; exists MFlowMappingStart; cbn; auto 10|].
      destruct (T rest) as [_ (evs & SA & (TE & _))].
      destruct (dress_map known ab pre evs e D SA) as (ev & SA' & TN & _). exists (ev :: evs). split; [exact SA'|apply TN, TE].
    - (* end of a sequence *)
      intros f p p0 p' AP CH A. pose proof (apart_moves _ _ AP) as M0. pose proof (moves_ascii _ _ M0 A) as A0. pose proof (moves_order _ _ M0) as [B0 B0'].
      destruct (char_moves _ _ _ A0 CH ltac:(lia) ltac:(lia) ltac:(lia)) as (M1 & EO & EL).
      split; [eauto using moves_trans|]. intros ska key c SK C K.
      assert (FI : firm (flow_increment c) p0) by (eapply flow_firm with (l := line p'); [reflexivity|exact C|lia]).
      pose proof (close_step o NE NL false p p0 p' ska key (flow_increment c) c 0 A AP K (firm_sets _ _ FI) CH) as ST.
      eexists. split; [apply run_one; exact ST|]. split; [repeat constructor; cbn; lia|]. intros rest.
      change (toks _) with [Tok TFlowSequenceEnd]. split; [intros _; exists MFlowSequenceEnd; cbn; auto|].
      exists [EvSequenceEnd]. split; [reflexivity|]. destruct f; [split|]; try apply tfe_end. apply tfe_trailing.
    - (* comma of a sequence *)
      intros p p0 p1 e p' AP CH FS IH A. pose proof (apart_moves _ _ AP) as M0. pose proof (moves_ascii _ _ M0 A) as A0. pose proof (moves_order _ _ M0) as [B0 B0'].
      destruct (char_moves _ _ _ A0 CH ltac:(lia) ltac:(lia) ltac:(lia)) as (M1 & EO & EL). pose proof (moves_ascii _ _ M1 A0) as A1.
      destruct (IH A1) as [M2 IH']. pose proof (moves_order _ _ M2) as [B2 B2'].
      split; [eauto using moves_trans|]. intros ska key c SK C K.
      assert (FI : firm (flow_increment c) p0) by (eapply flow_firm with (l := line p'); [reflexivity|exact C|lia]).
      pose proof (comma_step o NE NL p p0 p1 ska key (flow_increment c) _ 0 A AP K (firm_sets _ _ FI) CH) as ST.
      destruct (IH' true None c (fun _ => eq_refl) C Logic.I) as (es & R & W & T).
      destruct (chain p1 (offset p) (offset p') _ _ _ _ _ ST eq_refl ltac:(repeat constructor; cbn; lia) R W ltac:(lia) ltac:(lia)) as (R' & W' & T').
      eexists. split; [exact R'|]. split; [exact W'|]. intros rest. rewrite T'. change (toks (_ ++ [_])) with [Tok TFlowEntry]. cbn [app].
      split; [intros _; exists MFlowEntry; cbn; auto|]. destruct (T rest) as [_ (evs & SA & (_ & TE))]. exists evs. split; [exact SA|exact TE].
    - (* entry of a sequence *)
      intros p d p1 e p' FN IH1 FS IH2 A. destruct (IH1 A) as [M1 IH1']. pose proof (moves_ascii _ _ M1 A) as A1. destruct (IH2 A1) as [M2 IH2'].
      pose proof (moves_order _ _ M1) as [B1 B1']. pose proof (moves_order _ _ M2) as [B2 B2'].
      split; [eauto using moves_trans|]. intros ska key c SK C K.
      destruct (IH1' ska key (flow_increment c) eq_refl (calm_le (flow_increment c) _ _ C B2') K) as (es & ska1 & key1 & R1 & K1 & _ & W1 & T1).
      destruct (IH2' ska1 key1 c ltac:(discriminate) C K1) as (fs & R2 & W2 & T2).
      destruct (run_chain (offset p1) (offset p) (offset p') _ _ _ _ _ R1 W1 R2 W2 B1 B2) as (R & W & T).
      eexists. split; [exact R|]. split; [exact W|]. intros rest. split; [discriminate|]. rewrite T, <- app_assoc.
      destruct (T2 rest) as [AH (ev2 & SA2 & TE2)].
      assert (AH' : ahead_in (toks fs ++ rest) flow_stops) by (destruct (AH eq_refl) as (m & E & I); exists m; split; [exact E|unfold flow_stops; cbn [In] in *; tauto]).
      destruct (T1 (toks fs ++ rest) AH') as [ST1 (ev1 & SA1 & TE1)].
      exists (ev1 ++ ev2). split; [apply said_app; assumption|].
      assert (TI : t_flow_entry known (toks es ++ toks fs ++ rest) ev1 (toks fs ++ rest)).
      { apply tfi_node; [|exact TE1]. eapply starting_not; [exact ST1|]. cbn. intuition congruence. }
      split; [eapply tfe_first; eauto|eapply tfe_next; eauto].
    - (* pair of a sequence *)
      intros p p0 x p1 d p2 e p' AP KY FV IH1 FS IH2 A.
      pose proof (apart_moves _ _ AP) as M0. pose proof (moves_order _ _ M0) as [B0 B0'].
      destruct (key_moves o NE NL handles true 0 p0 x p1 (moves_ascii _ _ M0 A) KY) as (M1' & O1 & L1). pose proof (moves_trans _ _ _ M0 M1') as M1.
      pose proof (moves_ascii _ _ M1 A) as A1. destruct (IH1 A1) as [M2 IH1']. pose proof (moves_ascii _ _ M2 A1) as A2.
      destruct (IH2 A2) as [M3 IH2']. pose proof (moves_order _ _ M2) as [B2 B2']. pose proof (moves_order _ _ M3) as [B3 B3'].
      split; [eauto using moves_trans|]. intros ska key c SK C K.
      assert (FI : firm (flow_increment c) p0) by (eapply flow_firm with (l := line p'); [reflexivity|exact C|lia]).
      destruct (key_run o NE NL handles known HK p p0 x p1 0 ska key _ _ 0 A AP K (firm_sets _ _ FI) FI KY ltac:(discriminate) (or_introl (SK eq_refl))) as (kt & kev & es & SK0 & KD & R1 & W1 & T1).
      change (fst (roll (flow_increment c) (snd p0) true)) with (flow_increment c) in R1. change (snd (roll (flow_increment c) (snd p0) true)) with (@nil entry) in T1.
      destruct (IH1' false None (flow_increment c) eq_refl (calm_le (flow_increment c) _ _ C B3') Logic.I) as (es2 & ska2 & key2 & R2 & K2 & _ & W2 & T2).
      destruct (IH2' ska2 key2 c ltac:(discriminate) C K2) as (es3 & R3 & W3 & T3).
      destruct (run_chain (offset p2) (offset p1) (offset p') _ _ _ _ _ R2 W2 R3 W3 B2 B3) as (R4 & W4 & T4).
      destruct (run_chain (offset p1) (offset p) (offset p') _ _ _ _ _ R1 (within_wide _ _ _ _ _ W1 B0 (le_n _)) R4 W4 ltac:(lia) ltac:(lia)) as (R & W & T).
      eexists. split; [exact R|]. split; [exact W|]. intros rest. split; [discriminate|].
      rewrite T, T1, T4. change (repeat (Tok TBlockEnd) 0) with (@nil maybe_token). change (toks []) with (@nil maybe_token). cbn [app].
      repeat (rewrite <- app_assoc; cbn [app]). destruct (T3 rest) as [AH (ev3 & SA3 & TE3)].
      destruct (T2 [MFlowEntry; MFlowSequenceEnd] (toks es3 ++ rest) ltac:(intros m; cbn; tauto) (AH eq_refl)) as (ev2 & SA2 & TE2).
      exists ((EvMappingStart (mkNode None None Entry) :: [kev] ++ ev2 ++ [EvMappingEnd]) ++ ev3). split.
      { cbn [app]. apply said_cons; [reflexivity|]. apply said_cons; [exact SK0|]. rewrite <- app_assoc. apply said_app; [exact SA2|].
        cbn [app]. apply said_cons; [reflexivity|exact SA3]. }
      assert (TI : t_flow_entry known (Tok TKey :: kt ++ Tok TValue :: toks es2 ++ toks es3 ++ rest)
        (EvMappingStart (mkNode None None Entry) :: [kev] ++ ev2 ++ [EvMappingEnd]) (toks es3 ++ rest)).
      { destruct (KD false (Tok TValue :: toks es2 ++ toks es3 ++ rest)) as [KS KN]. eapply tfi_pair; [apply ts_node; [eapply starting_not; [exact KS|cbn; intuition congruence]|exact KN]|]. apply tv_value. exact TE2. }
      split; [eapply tfe_first; eauto|eapply tfe_next; eauto].
    - (* explicit key of a sequence *)
      intros p p0 p1 d p2 e p' AP CH FQ IH1 FS IH2 A.
      pose proof (apart_moves _ _ AP) as M0. pose proof (moves_order _ _ M0) as [B0 B0']. pose proof (moves_ascii _ _ M0 A) as A0.
      destruct (char_moves _ _ _ A0 CH ltac:(lia) ltac:(lia) ltac:(lia)) as (M1' & EO & EL). pose proof (moves_trans _ _ _ M0 M1') as M1.
      pose proof (moves_ascii _ _ M1 A) as A1. destruct (IH1 A1) as [M2 IH1']. pose proof (moves_ascii _ _ M2 A1) as A2.
      destruct (IH2 A2) as [M3 IH2']. pose proof (moves_order _ _ M2) as [B2 B2']. pose proof (moves_order _ _ M3) as [B3 B3'].
      split; [eauto using moves_trans|]. intros ska key c SK C K.
      assert (FI : firm (flow_increment c) p0) by (eapply flow_firm with (l := line p'); [reflexivity|exact C|lia]).
      pose proof (question_step o NE NL p p0 p1 ska key _ _ 0 A AP K (firm_sets _ _ FI) CH (or_introl eq_refl) (or_introl eq_refl)) as ST.
      change (fst (roll (flow_increment c) (snd p0) true)) with (flow_increment c) in ST. change (snd (roll (flow_increment c) (snd p0) true)) with (@nil entry) in ST.
      change (is_block (flow_increment c)) with false in ST.
      destruct (IH1' (flow_increment c) eq_refl (calm_le (flow_increment c) _ _ C B3')) as (es2 & ska2 & key2 & R2 & K2 & W2 & T2).
      destruct (IH2' ska2 key2 c ltac:(discriminate) C K2) as (es3 & R3 & W3 & T3).
      destruct (run_chain (offset p2) (offset p1) (offset p') _ _ _ _ _ R2 W2 R3 W3 B2 B3) as (R4 & W4 & T4).
      destruct (chain p1 (offset p) (offset p') _ _ _ _ _ ST eq_refl ltac:(repeat constructor; cbn; lia) R4 W4 ltac:(lia) ltac:(lia)) as (R & W & T).
      eexists. split; [exact R|]. split; [exact W|]. intros rest. split; [discriminate|].
      rewrite T, T4. change (toks (ends 0 (offset p0) ++ [] ++ [mkEntry (Tok TKey) (offset p1)])) with [Tok TKey]. cbn [app].
      repeat (rewrite <- app_assoc; cbn [app]). destruct (T3 rest) as [AH (ev3 & SA3 & TE3)].
      destruct (T2 [MFlowEntry; MFlowSequenceEnd] (toks es3 ++ rest) ltac:(intros m; cbn; tauto) (AH eq_refl)) as (kevs & vevs & rest1 & SA2 & TK & TV).
      exists ((EvMappingStart (mkNode None None Entry) :: kevs ++ vevs ++ [EvMappingEnd]) ++ ev3). split.
      { cbn [app]. apply said_cons; [reflexivity|]. rewrite (app_assoc kevs), <- (app_assoc (kevs ++ vevs)). apply said_app; [exact SA2|].
        cbn [app]. apply said_cons; [reflexivity|exact SA3]. }
      assert (TI : t_flow_entry known (Tok TKey :: toks es2 ++ toks es3 ++ rest)
        (EvMappingStart (mkNode None None Entry) :: kevs ++ vevs ++ [EvMappingEnd]) (toks es3 ++ rest)) by (eapply tfi_pair; eassumption).
      split; [eapply tfe_first; eauto|eapply tfe_next; eauto].
    - (* end of a mapping *)
      intros f p p0 p' AP CH A. pose proof (apart_moves _ _ AP) as M0. pose proof (moves_ascii _ _ M0 A) as A0. pose proof (moves_order _ _ M0) as [B0 B0'].
      destruct (char_moves _ _ _ A0 CH ltac:(lia) ltac:(lia) ltac:(lia)) as (M1 & EO & EL).
      split; [eauto using moves_trans|]. intros ska key c SK C K.
      assert (FI : firm (flow_increment c) p0) by (eapply flow_firm with (l := line p'); [reflexivity|exact C|lia]).
      pose proof (close_step o NE NL true p p0 p' ska key (flow_increment c) c 0 A AP K (firm_sets _ _ FI) CH) as ST.
      eexists. split; [apply run_one; exact ST|]. split; [repeat constructor; cbn; lia|]. intros rest.
      change (toks _) with [Tok TFlowMappingEnd]. split; [intros _; exists MFlowMappingEnd; cbn; auto|].
      exists [EvMappingEnd]. split; [reflexivity|]. destruct f; [split|]; try apply tfp_end. apply tfp_trailing.
    - (* comma of a mapping *)
      intros p p0 p1 e p' AP CH FS IH A. pose proof (apart_moves _ _ AP) as M0. pose proof (moves_ascii _ _ M0 A) as A0. pose proof (moves_order _ _ M0) as [B0 B0'].
      destruct (char_moves _ _ _ A0 CH ltac:(lia) ltac:(lia) ltac:(lia)) as (M1 & EO & EL). pose proof (moves_ascii _ _ M1 A0) as A1.
      destruct (IH A1) as [M2 IH']. pose proof (moves_order _ _ M2) as [B2 B2'].
      split; [eauto using moves_trans|]. intros ska key c SK C K.
      assert (FI : firm (flow_increment c) p0) by (eapply flow_firm with (l := line p'); [reflexivity|exact C|lia]).
      pose proof (comma_step o NE NL p p0 p1 ska key (flow_increment c) _ 0 A AP K (firm_sets _ _ FI) CH) as ST.
      destruct (IH' true None c (fun _ => eq_refl) C Logic.I) as (es & R & W & T).
      destruct (chain p1 (offset p) (offset p') _ _ _ _ _ ST eq_refl ltac:(repeat constructor; cbn; lia) R W ltac:(lia) ltac:(lia)) as (R' & W' & T').
      eexists. split; [exact R'|]. split; [exact W'|]. intros rest. rewrite T'. change (toks (_ ++ [_])) with [Tok TFlowEntry]. cbn [app].
      split; [intros _; exists MFlowEntry; cbn; auto|]. destruct (T rest) as [_ (evs & SA & (_ & TE))]. exists evs. split; [exact SA|exact TE].
    - (* key of a mapping without value *)
      intros p d p1 e p' FN IH1 FS IH2 A. destruct (IH1 A) as [M1 IH1']. pose proof (moves_ascii _ _ M1 A) as A1. destruct (IH2 A1) as [M2 IH2'].
      pose proof (moves_order _ _ M1) as [B1 B1']. pose proof (moves_order _ _ M2) as [B2 B2'].
      split; [eauto using moves_trans|]. intros ska key c SK C K.
      destruct (IH1' ska key (flow_increment c) eq_refl (calm_le (flow_increment c) _ _ C B2') K) as (es & ska1 & key1 & R1 & K1 & _ & W1 & T1).
      destruct (IH2' ska1 key1 c ltac:(discriminate) C K1) as (fs & R2 & W2 & T2).
      destruct (run_chain (offset p1) (offset p) (offset p') _ _ _ _ _ R1 W1 R2 W2 B1 B2) as (R & W & T).
      eexists. split; [exact R|]. split; [exact W|]. intros rest. split; [discriminate|]. rewrite T, <- app_assoc.
      destruct (T2 rest) as [AH (ev2 & SA2 & TE2)].
      assert (AH' : ahead_in (toks fs ++ rest) flow_stops) by (destruct (AH eq_refl) as (m & E & I); exists m; split; [exact E|unfold flow_stops; cbn [In] in *; tauto]).
      destruct (T1 (toks fs ++ rest) AH') as [ST1 (ev1 & SA1 & TE1)].
      exists ((ev1 ++ [absent Value]) ++ ev2). split.
      { rewrite <- app_assoc. apply said_app; [exact SA1|]. cbn [app]. apply said_cons; [reflexivity|exact SA2]. }
      assert (TI : t_flow_pair known (toks es ++ toks fs ++ rest) (ev1 ++ [absent Value]) (toks fs ++ rest)).
      { apply tfq_key; [|exact TE1|].
        - eapply starting_not; [exact ST1|]. cbn. intuition congruence.
        - intros X. destruct (AH eq_refl) as (m & E & _). rewrite X in E. discriminate. }
      split; [eapply tfp_first; eauto|eapply tfp_next; eauto].
    - (* pair of a mapping *)
      intros p p0 x p1 d p2 e p' AP KY FV IH1 FS IH2 A.
      pose proof (apart_moves _ _ AP) as M0. pose proof (moves_order _ _ M0) as [B0 B0'].
      destruct (key_moves o NE NL handles true 0 p0 x p1 (moves_ascii _ _ M0 A) KY) as (M1' & O1 & L1). pose proof (moves_trans _ _ _ M0 M1') as M1.
      pose proof (moves_ascii _ _ M1 A) as A1. destruct (IH1 A1) as [M2 IH1']. pose proof (moves_ascii _ _ M2 A1) as A2.
      destruct (IH2 A2) as [M3 IH2']. pose proof (moves_order _ _ M2) as [B2 B2']. pose proof (moves_order _ _ M3) as [B3 B3'].
      split; [eauto using moves_trans|]. intros ska key c SK C K.
      assert (FI : firm (flow_increment c) p0) by (eapply flow_firm with (l := line p'); [reflexivity|exact C|lia]).
      destruct (key_run o NE NL handles known HK p p0 x p1 0 ska key _ _ 0 A AP K (firm_sets _ _ FI) FI KY ltac:(discriminate) (or_introl (SK eq_refl))) as (kt & kev & es & SK0 & KD & R1 & W1 & T1).
      change (fst (roll (flow_increment c) (snd p0) true)) with (flow_increment c) in R1. change (snd (roll (flow_increment c) (snd p0) true)) with (@nil entry) in T1.
      destruct (IH1' false None (flow_increment c) eq_refl (calm_le (flow_increment c) _ _ C B3') Logic.I) as (es2 & ska2 & key2 & R2 & K2 & _ & W2 & T2).
      destruct (IH2' ska2 key2 c ltac:(discriminate) C K2) as (es3 & R3 & W3 & T3).
      destruct (run_chain (offset p2) (offset p1) (offset p') _ _ _ _ _ R2 W2 R3 W3 B2 B3) as (R4 & W4 & T4).
      destruct (run_chain (offset p1) (offset p) (offset p') _ _ _ _ _ R1 (within_wide _ _ _ _ _ W1 B0 (le_n _)) R4 W4 ltac:(lia) ltac:(lia)) as (R & W & T).
      eexists. split; [exact R|]. split; [exact W|]. intros rest. split; [discriminate|].
      rewrite T, T1, T4. change (repeat (Tok TBlockEnd) 0) with (@nil maybe_token). change (toks []) with (@nil maybe_token). cbn [app].
      repeat (rewrite <- app_assoc; cbn [app]). destruct (T3 rest) as [AH (ev3 & SA3 & TE3)].
      destruct (T2 [MFlowEntry; MFlowMappingEnd] (toks es3 ++ rest) ltac:(intros m; cbn; tauto) (AH eq_refl)) as (ev2 & SA2 & TE2).
      exists (([kev] ++ ev2) ++ ev3). split.
      { cbn [app]. apply said_cons; [exact SK0|]. apply said_app; assumption. }
      assert (TI : t_flow_pair known (Tok TKey :: kt ++ Tok TValue :: toks es2 ++ toks es3 ++ rest)
        ([kev] ++ ev2) (toks es3 ++ rest)).
      { destruct (KD false (Tok TValue :: toks es2 ++ toks es3 ++ rest)) as [KS KN]. eapply tfq_pair; [apply ts_node; [eapply starting_not; [exact KS|cbn; intuition congruence]|exact KN]|]. apply tv_value. exact TE2. }
      split; [eapply tfp_first; eauto|eapply tfp_next; eauto].
    - (* explicit key of a mapping *)
      intros p p0 p1 d p2 e p' AP CH FQ IH1 FS IH2 A.
      pose proof (apart_moves _ _ AP) as M0. pose proof (moves_order _ _ M0) as [B0 B0']. pose proof (moves_ascii _ _ M0 A) as A0.
      destruct (char_moves _ _ _ A0 CH ltac:(lia) ltac:(lia) ltac:(lia)) as (M1' & EO & EL). pose proof (moves_trans _ _ _ M0 M1') as M1.
      pose proof (moves_ascii _ _ M1 A) as A1. destruct (IH1 A1) as [M2 IH1']. pose proof (moves_ascii _ _ M2 A1) as A2.
      destruct (IH2 A2) as [M3 IH2']. pose proof (moves_order _ _ M2) as [B2 B2']. pose proof (moves_order _ _ M3) as [B3 B3'].
      split; [eauto using moves_trans|]. intros ska key c SK C K.
      assert (FI : firm (flow_increment c) p0) by (eapply flow_firm with (l := line p'); [reflexivity|exact C|lia]).
      pose proof (question_step o NE NL p p0 p1 ska key _ _ 0 A AP K (firm_sets _ _ FI) CH (or_introl eq_refl) (or_introl eq_refl)) as ST.
      change (fst (roll (flow_increment c) (snd p0) true)) with (flow_increment c) in ST. change (snd (roll (flow_increment c) (snd p0) true)) with (@nil entry) in ST.
      change (is_block (flow_increment c)) with false in ST.
      destruct (IH1' (flow_increment c) eq_refl (calm_le (flow_increment c) _ _ C B3')) as (es2 & ska2 & key2 & R2 & K2 & W2 & T2).
      destruct (IH2' ska2 key2 c ltac:(discriminate) C K2) as (es3 & R3 & W3 & T3).
      destruct (run_chain (offset p2) (offset p1) (offset p') _ _ _ _ _ R2 W2 R3 W3 B2 B3) as (R4 & W4 & T4).
      destruct (chain p1 (offset p) (offset p') _ _ _ _ _ ST eq_refl ltac:(repeat constructor; cbn; lia) R4 W4 ltac:(lia) ltac:(lia)) as (R & W & T).
      eexists. split; [exact R|]. split; [exact W|]. intros rest. split; [discriminate|].
      rewrite T, T4. change (toks (ends 0 (offset p0) ++ [] ++ [mkEntry (Tok TKey) (offset p1)])) with [Tok TKey]. cbn [app].
      repeat (rewrite <- app_assoc; cbn [app]). destruct (T3 rest) as [AH (ev3 & SA3 & TE3)].
      destruct (T2 [MFlowEntry; MFlowMappingEnd] (toks es3 ++ rest) ltac:(intros m; cbn; tauto) (AH eq_refl)) as (kevs & vevs & rest1 & SA2 & TK & TV).
      exists ((kevs ++ vevs) ++ ev3). split; [apply said_app; assumption|].
      assert (TI : t_flow_pair known (Tok TKey :: toks es2 ++ toks es3 ++ rest) (kevs ++ vevs) (toks es3 ++ rest)) by (eapply tfq_pair; eassumption).
      split; [eapply tfp_first; eauto|eapply tfp_next; eauto].
    - (* node *)
      intros k p d p' FN IH A. destruct (IH A) as [M IH']. split; [exact M|]. intros ska key c F C K.
      destruct (IH' ska key c F C K) as (es & ska' & key' & R & K' & N' & W & T). exists es, ska', key'. split; [exact R|]. split; [exact K'|]. split; [exact N'|]. split; [exact W|].
      intros stop rest I AH. assert (AH' : ahead_in rest flow_stops) by (destruct AH as (m & E & X); exists m; split; [exact E|apply I, X]).
      destruct (T rest AH') as [ST (evs & SA & TE)]. exists evs. split; [exact SA|]. apply ts_node; [|exact TE].
      eapply starting_not; [exact ST|]. apply disjoint_stop, I.
    - (* nothing *)
      intros k p B A. split; [apply reads_here|]. intros ska key c F C K. exists [], ska, key. split; [apply run_nil|]. split; [exact K|]. split; [intros _ _ E; exact E|]. split; [constructor|].
      intros stop rest I AH. exists [absent k]. split; [reflexivity|]. apply ts_absent. exact AH.
    - (* explicit key with a value *)
      intros p d p1 p2 p3 v p' FK IH1 CL AP CH FV IH2 A. destruct (IH1 A) as [M1 IH1']. pose proof (moves_ascii _ _ M1 A) as A1.
      pose proof (apart_moves _ _ AP) as M2. pose proof (moves_ascii _ _ M2 A1) as A2.
      destruct (char_moves _ _ _ A2 CH ltac:(lia) ltac:(lia) ltac:(lia)) as (M3 & EO & EL). pose proof (moves_ascii _ _ M3 A2) as A3.
      destruct (IH2 A3) as [M4 IH2'].
      pose proof (moves_order _ _ M1) as [B1 B1']. pose proof (moves_order _ _ M2) as [B2 B2']. pose proof (moves_order _ _ M4) as [B4 B4'].
      split; [eauto using moves_trans|]. intros c F C.
      destruct (IH1' false None c F (calm_le c (line p') (line p1) C ltac:(lia)) Logic.I) as (es1 & ska1 & key1 & R1 & _ & N1 & W1 & T1).
      rewrite (N1 CL eq_refl eq_refl) in R1.
      assert (FI : firm c p2) by (eapply flow_firm with (l := line p'); [exact F|exact C|lia]).
      pose proof (colon_step o NE NL p1 p2 p3 ska1 None _ _ 0 A1 AP Logic.I (firm_sets _ _ FI) CH (or_introl F) (or_introl F) eq_refl) as ST.
      assert (ER : roll c (snd p2) true = (c, [])) by (unfold roll, is_block; rewrite F; reflexivity). rewrite ER in ST. cbn [fst snd app] in ST.
      destruct (IH2' (is_block c) None c F C Logic.I) as (es2 & ska2 & key2 & R2 & K2 & _ & W2 & T2).
      destruct (chain p3 (offset p1) (offset p') _ _ _ _ _ ST eq_refl ltac:(repeat constructor; cbn; lia) R2 W2 ltac:(lia) ltac:(lia)) as (R3 & W3 & T3).
      destruct (run_chain (offset p1) (offset p) (offset p') _ _ _ _ _ R1 W1 R3 W3 ltac:(lia) ltac:(lia)) as (R & W & T).
      eexists _, _, _. split; [exact R|]. split; [exact K2|]. split; [exact W|]. intros stop rest IN AH.
      rewrite T, T3. change (toks (ends 0 (offset p2) ++ [mkEntry (Tok TValue) (offset p3)])) with [Tok TValue]. cbn [app]. rewrite <- app_assoc. cbn [app].
      destruct (T2 stop rest ltac:(intros m X; apply (incl_app_stop _ IN); right; exact X) AH) as (vevs & SA2 & TE2).
      destruct (T1 (MValue :: stop) (Tok TValue :: toks es2 ++ rest) (incl_app_stop _ IN) ltac:(exists MValue; cbn; auto)) as (kevs & SA1 & TE1).
      exists kevs, vevs, (Tok TValue :: toks es2 ++ rest). split; [apply said_app; assumption|]. split; [exact TE1|apply tv_value; exact TE2].
    - (* explicit key without a value *)
      intros p d p' FK IH A. destruct (IH A) as [M IH']. split; [exact M|]. intros c F C.
      destruct (IH' false None c F C Logic.I) as (es & ska' & key' & R & K' & _ & W & T). exists es, ska', key'. split; [exact R|]. split; [exact K'|]. split; [exact W|].
      intros stop rest IN AH. pose proof AH as (m & E & IM).
      destruct (T (MValue :: stop) rest (incl_app_stop _ IN) ltac:(exists m; split; [exact E|right; exact IM])) as (kevs & SA & TE).
      exists kevs, [absent Value], rest. split; [apply said_app; [exact SA|reflexivity]|]. split; [exact TE|]. apply tv_absent.
      exists m. split; [exact E|]. intros [X|[]]. subst m. apply IN in IM. cbn in IM. intuition congruence.
  Qed.
End Flow.
