(** Well-formed texts can be cut at character boundaries; contract of the lazy scan of
    quoted scalars. *)
From Verif Require Export BlockFacts UriFacts.
From Verif Require Import Utf8Facts SpecUtf8.
From Coq Require Import Lia ZifyBool ZifyN ZifyNat.
Open Scope nat_scope.

(** The first character of a well-formed text. *)
Lemma valid_first s : valid s -> s <> [] ->
  exists b c r, s = b :: c ++ r /\ valid r /\ width_byte b = S (List.length c) /\
    is_cont b = false /\ Forall (fun x => is_cont x = true) c.
Proof.
  intros V NE. destruct (valid_cons s V NE) as (v & r & SV & -> & VR & _).
  destruct (encode_nonempty v) as (b & c & E). destruct (encode_octets v b c SV E) as (O & F & B).
  exists b, c, r. rewrite E. split; [reflexivity|]. split; [exact VR|].
  rewrite octet_len_spec in O by exact B. unfold width_byte, is_cont.
  unfold rng in *. split; [|split; [|exact F]].
  - destruct (b <? 128)%N; [congruence|]. destruct ((192 <=? b)%N && (b <=? 223)%N); [congruence|].
    destruct ((224 <=? b)%N && (b <=? 239)%N); [congruence|].
    destruct ((240 <=? b)%N && (b <=? 247)%N); congruence.
  - destruct ((128 <=? b)%N && (b <=? 191)%N) eqn:X; [|reflexivity].
    replace (b <? 128)%N with false in O by lia. replace ((192 <=? b)%N && (b <=? 223)%N) with false in O by lia.
    replace ((224 <=? b)%N && (b <=? 239)%N) with false in O by lia.
    replace ((240 <=? b)%N && (b <=? 247)%N) with false in O by lia. discriminate.
Qed.

Lemma valid_head s : valid s -> head_ok s.
Proof.
  intros V. destruct s as [|x s]; [exact Logic.I|].
  destruct (valid_first _ V ltac:(discriminate)) as (b & c & r & E & _ & _ & H & _).
  injection E as -> _. exact H.
Qed.

Lemma valid_skipn_len n : forall s k, List.length s <= n -> valid s -> is_boundary s k = true -> valid (skipn k s).
Proof.
  induction n as [|n IH]; intros s k L V B.
  { destruct s; [|cbn in L; lia]. rewrite skipn_nil. exact V. }
  destruct s as [|x s]; [rewrite skipn_nil; exact V|].
  destruct (valid_first _ V ltac:(discriminate)) as (b & c & r & E & VR & W & H & F).
  destruct k as [|k]; [exact V|]. injection E as -> ->. cbn [skipn].
  destruct (Nat.lt_ge_cases k (List.length c)) as [K|K].
  - (* inside the character *)
    exfalso. unfold is_boundary in B. cbn [nth_error] in B.
    rewrite nth_error_app1 in B by lia.
    destruct (nth_error c k) as [y|] eqn:Y; [|apply nth_error_None in Y; lia].
    apply nth_error_In in Y. rewrite Forall_forall in F. rewrite (F _ Y) in B. discriminate.
  - rewrite skipn_app, skipn_all2 by lia. cbn [app].
    apply IH; [cbn in L; rewrite app_length in L; lia|exact VR|].
    unfold is_boundary in *. cbn [nth_error] in B. rewrite nth_error_app2 in B by lia.
    destruct (k - List.length c) as [|j] eqn:J; [reflexivity|].
    destruct (nth_error r (S j)); [exact B|]. cbn [List.length] in B. rewrite app_length in B. lia.
Qed.
Lemma valid_skipn s k : valid s -> is_boundary s k = true -> valid (skipn k s).
Proof. apply (valid_skipn_len (List.length s)). lia. Qed.
Lemma reads_valid a sa b sb : reads a sa b sb -> valid a -> valid b.
Proof.
  induction 1 as [|s n st s' st' L _ B R IH|s st s' st' _ B R IH]; intros V; [exact V| |];
    apply IH, valid_skipn; assumption.
Qed.

Lemma cont_no_break b s : is_cont b = true -> is_break (b :: s) = false.
Proof.
  unfold is_cont, is_break, break_amt. intros H.
  replace (b =? 13)%N with false by lia. replace (b =? 10)%N with false by lia.
  replace (b =? 194)%N with false by lia. replace (b =? 226)%N with false by lia. reflexivity.
Qed.

(** Advance over one character. *)
Lemma adv_char_leaf o s st : valid s -> s <> [] -> is_break s = false ->
  leaf o (fun x : str * stats => let '(s', st') := x in reads s st s' st' /\ List.length s' < List.length s)
    False (adv s st (width_at s 0)).
Proof.
  intros V NE NB. destruct (valid_first s V NE) as (b & c & r & -> & VR & W & H & F).
  unfold width_at. cbn [nth_error]. rewrite W. set (s := b :: c ++ r) in *.
  assert (E : s = (b :: c) ++ r) by reflexivity.
  assert (BD : is_boundary s (S (List.length c)) = true).
  { rewrite E. apply (boundary_app (b :: c)). apply valid_head, VR. }
  unfold adv, skip. rewrite BD. cbn [bind leaf].
  assert (LE : S (List.length c) <= List.length s).
  { rewrite E, app_length. cbn. lia. }
  split; [|rewrite skipn_length; lia].
  apply reads_adv; [exact LE| |exact BD].
  intros k K. destruct k as [|k]; [exact NB|]. unfold s. cbn [skipn].
  rewrite skipn_app. replace (k - List.length c) with 0 by lia. cbn [skipn].
  destruct (skipn k c) as [|y t] eqn:S; [apply (f_equal (@List.length N)) in S; rewrite skipn_length in S; cbn in S; lia|].
  cbn [app]. apply cont_no_break. rewrite Forall_forall in F. apply F.
  rewrite <- (firstn_skipn k c), S. apply in_or_app. right. left. reflexivity.
Qed.

Lemma adv_line_valid o s st : valid s -> is_break s = true ->
  leaf o (fun x : str * stats => let '(s', st') := x in reads s st s' st' /\ List.length s' < List.length s)
    False (adv_line s st).
Proof.
  intros V B. eapply leaf_impl; [apply (adv_line_leaf o s st)| |].
  - intros [s' st'] (-> & -> & BD). split; [apply reads_line; assumption|].
    rewrite skipn_length. pose proof (is_break_nonempty _ B) as [NE P]. pose proof (break_amt_le s). lia.
  - intros BD. pose proof (is_break_nonempty _ B) as [NE P].
    destruct (valid_first s V NE) as (b & c & r & E & VR & W & H & F).
    assert (RH := valid_head _ VR).
    assert (BA : break_amt s = S (List.length c) \/ (break_amt s = 2 /\ exists t, c = [] /\ r = 10%N :: t)).
    { subst s. unfold break_amt in *. unfold is_break, break_amt in B.
      unfold width_byte, rng in W.
      destruct (b =? 13)%N eqn:B1.
      { replace (b <? 128)%N with true in W by lia. destruct c; [|discriminate]. cbn [app] in *.
        destruct (at_is r 0 10) eqn:A; [right|left; reflexivity]. split; [reflexivity|].
        destruct (at_is_cons _ _ A) as (t & ->). exists t. auto. }
      destruct (b =? 10)%N eqn:B2.
      { replace (b <? 128)%N with true in W by lia. left. lia. }
      destruct (b =? 194)%N eqn:B3.
      { replace (b <? 128)%N with false in W by lia.
        replace ((192 <=? b)%N && (b <=? 223)%N) with true in W by lia.
        destruct (at_is (c ++ r) 0 133); [|discriminate]. left. lia. }
      destruct (b =? 226)%N eqn:B4; [|discriminate].
      replace (b <? 128)%N with false in W by lia.
      replace ((192 <=? b)%N && (b <=? 223)%N) with false in W by lia.
      replace ((224 <=? b)%N && (b <=? 239)%N) with true in W by lia.
      destruct (at_is (c ++ r) 0 128 && _); [|discriminate]. left. lia. }
    subst s. destruct BA as [E|(E & t & -> & ->)]; rewrite E in BD.
    + pose proof (boundary_app (b :: c) r RH) as X. cbn [List.length app] in X. congruence.
    + cbn [app] in *. unfold is_boundary in BD. cbn [nth_error] in BD.
      assert (VT : head_ok t).
      { assert (V2 : valid (skipn 1 (10%N :: t))).
        { apply valid_skipn; [exact VR|]. unfold is_boundary. cbn [nth_error].
          destruct t as [|y t]; [reflexivity|].
          pose proof (valid_first (10%N :: y :: t) VR ltac:(discriminate)) as (b' & c' & r' & E' & VR' & W' & _).
          injection E' as <- E'. cbn in W'. destruct c'; [|discriminate]. cbn in E'. subst r'.
          apply valid_head in VR'. cbn in VR'. rewrite VR'. reflexivity. }
        apply (valid_head t V2). }
      destruct t as [|y t]; [discriminate|]. cbn in VT. rewrite VT in BD. discriminate.
Qed.

Lemma adv1_valid o b s st : valid (b :: s) -> (b < 128)%N -> b <> 10%N -> b <> 13%N ->
  leaf o (fun x : str * stats => let '(s', st') := x in reads (b :: s) st s' st' /\ s' = s)
    False (adv (b :: s) st 1).
Proof.
  intros V A B C.
  assert (NB : is_break (b :: s) = false).
  { unfold is_break, break_amt. replace (b =? 13)%N with false by lia. replace (b =? 10)%N with false by lia.
    replace (b =? 194)%N with false by lia. replace (b =? 226)%N with false by lia. reflexivity. }
  pose proof (adv_char_leaf o (b :: s) st V ltac:(discriminate) NB) as H.
  assert (W : width_at (b :: s) 0 = 1) by (apply width_ascii, A). rewrite W in H.
  pose proof (adv_leaf o (b :: s) st 1) as K.
  destruct (adv (b :: s) st 1) as [[s' st']|e| |]; cbn in *; auto.
  destruct K as (-> & _). destruct H. auto.
Qed.

Lemma flow_lazy_body_leaf o single buf st : valid buf ->
  leaf o (fun x : step (str * stats) (str * stats) =>
            match x with
            | Next (s', st') | Done (s', st') => reads buf st s' st' /\ List.length s' < List.length buf
            end) False (flow_lazy_body o single (buf, st)).
Proof.
  intros V. unfold flow_lazy_body. eapply leaf_bind; [prim|]. intros _ _.
  destruct buf as [|b r]; [apply leaf_err; discriminate|]. cbn [is_empty].
  match goal with |- context [if ?c then _ else _] => destruct c eqn:TWO end.
  { assert (A2 : exists y t, r = y :: t /\ (b < 128)%N /\ (y < 128)%N /\ b <> 10%N /\ b <> 13%N /\ y <> 10%N /\ y <> 13%N).
    { unfold at_is in TWO. cbn [nth_error] in TWO. destruct r as [|y t]; [rewrite !andb_false_r in TWO; discriminate|].
      exists y, t. split; [reflexivity|]. cbn [nth_error] in TWO. lia. }
    destruct A2 as (y & t & -> & B1 & Y1 & B2 & B3 & Y2 & Y3).
    eapply leaf_bind with (P := fun x : str * stats => let '(s', st') := x in
      reads (b :: y :: t) st s' st' /\ List.length s' < List.length (b :: y :: t)).
    - assert (V1 : valid (y :: t)).
      { pose proof (adv1_valid o b (y :: t) st V B1 B2 B3) as H. unfold adv, skip in H.
        destruct (is_boundary (b :: y :: t) 1) eqn:E; [|destruct H]. apply (valid_skipn (b :: y :: t) 1 V E). }
      assert (V2 : valid t).
      { pose proof (adv1_valid o y t st V1 Y1 Y2 Y3) as H. unfold adv, skip in H.
        destruct (is_boundary (y :: t) 1) eqn:E; [|destruct H]. apply (valid_skipn (y :: t) 1 V1 E). }
      pose proof (adv_app [b; y] t st (valid_head _ V2)) as EQ. cbn [app List.length] in EQ.
      rewrite EQ. cbn [leaf]. split; [|cbn; lia].
      pose proof (boundary_app [b; y] t (valid_head _ V2)) as BD.
      apply (reads_adv (b :: y :: t) 2 st); [cbn; lia| |exact BD].
      intros k K. assert (k = 0 \/ k = 1) as [->| ->] by lia; cbn [skipn].
      + unfold is_break, break_amt. replace (b =? 13)%N with false by lia. replace (b =? 10)%N with false by lia.
        replace (b =? 194)%N with false by lia. replace (b =? 226)%N with false by lia. reflexivity.
      + unfold is_break, break_amt. replace (y =? 13)%N with false by lia. replace (y =? 10)%N with false by lia.
        replace (y =? 194)%N with false by lia. replace (y =? 226)%N with false by lia. reflexivity.
    - intros [s' st'] H. exact H. }
  match goal with |- context [if ?c then _ else _] => destruct c eqn:QU end.
  { assert (A1 : (b < 128)%N /\ b <> 10%N /\ b <> 13%N).
    { unfold at_is in QU. cbn [nth_error] in QU. lia. }
    eapply leaf_bind; [apply (adv1_valid o b r st V); apply A1|].
    intros [s' st'] [R ->]. cbn [leaf]. split; [exact R|cbn; lia]. }
  destruct (is_break (b :: r)) eqn:BR.
  - eapply leaf_bind; [apply (adv_line_valid o (b :: r) st V BR)|]. intros [s' st'] H. exact H.
  - eapply leaf_bind; [apply (adv_char_leaf o (b :: r) st V ltac:(discriminate) BR)|]. intros [s' st'] H. exact H.
Qed.

Lemma scan_flow_lazy_leaf o q r st single : (q < 128)%N -> q <> 10%N -> q <> 13%N -> valid (q :: r) ->
  leaf o (fun x : deferred * nat * stats => let '(d, amt, st') := x in
            0 < amt <= List.length (q :: r) /\ reads (q :: r) st (skipn amt (q :: r)) st' /\
            d = DFlow (no_extend o) (firstn amt (q :: r)) st single)
    False (scan_flow_scalar_lazy o (q :: r) st single).
Proof.
  intros Q1 Q2 Q3 V. unfold scan_flow_scalar_lazy. eapply leaf_bind; [prim|]. intros _ _.
  eapply leaf_bind; [apply (adv1_valid o q r st V Q1 Q2 Q3)|]. intros [s1 st1] [R1 ->].
  eapply leaf_bind.
  { apply (leaf_loop o _
      (fun x : str * stats => let '(b, s) := x in reads (q :: r) st b s /\ List.length b < List.length (q :: r))
      (fun x : str * stats => List.length (fst x))
      (fun x : str * stats => let '(b, s) := x in reads (q :: r) st b s /\ List.length b < List.length (q :: r)));
      [|split; [exact R1|cbn; lia]|unfold fuel_of; cbn; lia].
    intros [b s] [R L]. eapply leaf_impl; [apply flow_lazy_body_leaf, (reads_valid _ _ _ _ R V)| |auto].
    intros [[b' s']|[b' s']] [R' L'].
    - cbn [fst]. split; [|exact L']. split; [eapply reads_trans; eauto|lia].
    - split; [eapply reads_trans; eauto|lia]. }
  intros [b s] [R L]. rewrite (slice_reads _ _ _ _ R). cbn [bind leaf].
  destruct (reads_consumed _ _ _ _ R) as [E1 E2]. rewrite E1.
  split; [unfold consumed; lia|]. auto.
Qed.

Definition flow_token (m : maybe_token) : Prop :=
  match m with
  | Tok (TScalar _ (SingleQuote | DoubleQuote)) => True
  | Lazy (DFlow _ _ _ _) => True
  | _ => False
  end.
Lemma scan_flow_leaf o q r st single : q = 39%N \/ q = 34%N -> valid (q :: r) ->
  leaf o (fun x : maybe_token * nat * stats => let '(tok, amt, st') := x in
            0 < amt <= List.length (q :: r) /\ reads (q :: r) st (skipn amt (q :: r)) st' /\ flow_token tok)
    (~ tame (q :: r)) (scan_flow_scalar o (q :: r) st single).
Proof.
  intros Q V. unfold scan_flow_scalar. destruct (lazy_mode o).
  - eapply leaf_bind; [eapply leaf_impl; [apply scan_flow_lazy_leaf; [lia|lia|lia|exact V]|intros a X; exact X|intros []]|].
    intros [[d amt] st'] (A & R & ->). cbn [leaf]. split; [exact A|]. split; [exact R|exact Logic.I].
  - eapply leaf_bind; [apply scan_flow_eager_leaf|].
    + unfold plain_byte. destruct Q as [-> | ->]; repeat split; try lia; discriminate.
    + intros [[d amt] st'] (A & R & t & ->). cbn [leaf]. split; [exact A|]. split; [exact R|].
      destruct single; exact Logic.I.
Qed.
