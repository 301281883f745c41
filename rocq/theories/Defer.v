(** Scanning a quoted or plain scalar lazily and evaluating the deferred text gives what
    scanning it eagerly gives. *)
From Verif Require Import QuotedFacts PlainSem Utf8Facts SpecUtf8 LazyFacts Loops.
From Verif Require Export Block SpecDefer.
From Coq Require Import Lia ZifyBool ZifyN ZifyNat.
Open Scope nat_scope.

(** ** ASCII texts and their beginnings *)
Lemma skip_ascii {E} s n : ascii s -> n <= List.length s -> skip (E := E) s n = Ok (skipn n s).
Proof. intros A L. unfold skip. rewrite ascii_boundary by assumption. reflexivity. Qed.
Lemma slice_ascii {E} s a b : ascii s -> a <= b -> b <= List.length s -> slice (E := E) s a b = Ok (firstn (b - a) (skipn a s)).
Proof.
  intros A L1 L2. unfold slice. rewrite !ascii_boundary by (assumption || lia).
  replace (Nat.leb a b) with true by (symmetry; apply Nat.leb_le; lia). reflexivity.
Qed.
Lemma adv_ascii s st n : ascii s -> n <= List.length s -> adv s st n = Ok (skipn n s, supd st n 0 n).
Proof. intros A L. unfold adv. rewrite skip_ascii by assumption. reflexivity. Qed.
Lemma adv_line_ascii s st : ascii s -> adv_line s st = Ok (skipn (break_amt s) s, supd st (break_amt s) 1 0).
Proof. intros A. unfold adv_line. rewrite skip_ascii; [reflexivity|exact A|apply break_amt_le]. Qed.
Lemma ascii_l a b : ascii (a ++ b) -> ascii a.
Proof. intros H. apply Forall_app in H. tauto. Qed.
Lemma ascii_r a b : ascii (a ++ b) -> ascii b.
Proof. intros H. apply Forall_app in H. tauto. Qed.

Lemma break_head a s : (a < 128)%N -> is_break (a :: s) = (a =? 13)%N || (a =? 10)%N.
Proof.
  intros A. unfold is_break, break_amt. destruct (a =? 13)%N; [destruct (at_is s 0 10); reflexivity|].
  destruct (a =? 10)%N; [reflexivity|]. replace (a =? 194)%N with false by lia. replace (a =? 226)%N with false by lia. reflexivity.
Qed.
Lemma break_cut x r : ascii x -> x <> [] -> is_break (x ++ r) = is_break x.
Proof. destruct x as [|a x]; [congruence|]. intros A _. inversion A; subst. cbn [app]. rewrite !break_head by assumption. reflexivity. Qed.
Lemma blank_cut x r : x <> [] -> is_blank (x ++ r) = is_blank x.
Proof. destruct x as [|a x]; [congruence|]. reflexivity. Qed.
Lemma ws_cut x r : ascii x -> x <> [] -> is_ws (x ++ r) = is_ws x.
Proof. intros. unfold is_ws. rewrite break_cut, blank_cut by assumption. reflexivity. Qed.
Lemma wsZ_cut x r : ascii x -> x <> [] -> is_wsZ (x ++ r) = is_wsZ x.
Proof. intros. unfold is_wsZ. rewrite break_cut, blank_cut by assumption. destruct x; [congruence|reflexivity]. Qed.
Lemma at_cut x r n c : n < List.length x -> at_is (x ++ r) n c = at_is x n c.
Proof. intros L. unfold at_is. rewrite nth_error_app1 by exact L. reflexivity. Qed.
Lemma amt_cut x r : ascii x -> x <> [] -> break_amt (x ++ r) <= List.length x -> break_amt x = break_amt (x ++ r).
Proof.
  destruct x as [|a x]; [congruence|]. intros A _. inversion A; subst. unfold break_amt. cbn [app].
  destruct (a =? 13)%N; [|destruct (a =? 10)%N; [reflexivity|]; replace (a =? 194)%N with false by lia; replace (a =? 226)%N with false by lia; reflexivity].
  destruct x as [|b x]; [|reflexivity]. cbn [app List.length]. change (at_is [] 0 10) with false. destruct (at_is r 0 10); [lia|reflexivity].
Qed.
Lemma skipn_cut {A} (x r : list A) n : n <= List.length x -> skipn n (x ++ r) = skipn n x ++ r.
Proof. intros L. rewrite skipn_app. replace (n - List.length x) with 0 by lia. reflexivity. Qed.
Lemma cut_amount {A} (x r y : list A) n : skipn n (x ++ r) = y ++ r -> y <> [] \/ n <= List.length (x ++ r) -> n <= List.length x /\ skipn n x = y.
Proof.
  intros H N. assert (L : n <= List.length x).
  { apply (f_equal (@List.length A)) in H. rewrite skipn_length, !app_length in *.
    destruct N as [N|N]; [destruct y; [congruence|]; cbn [List.length] in H; lia|lia]. }
  split; [exact L|]. rewrite skipn_cut in H by exact L. eapply app_inv_tail, H.
Qed.
Lemma consumed_cut base x r : consumed (base ++ r) (x ++ r) = consumed base x.
Proof. unfold consumed. rewrite !app_length. lia. Qed.

(** ** Quoted scalars: the lazy scan reads what the eager scan reads *)
Lemma no_double_skipn s n : no_double s -> no_double (skipn n s).
Proof.
  intros H a b E. apply (H (firstn n s ++ a) b). rewrite <- app_assoc, <- E. symmetry. apply firstn_skipn.
Qed.

Section Flow.
  Variables (o ol : flags) (single : bool).
  Hypothesis OX : extendable o = false.
  Hypothesis LX : extendable ol = false.
  Notation q := (if single then 39 else 34)%N.

  (** Rounds of the lazy loop. *)
  Inductive reach : str * stats -> str * stats -> Prop :=
  | reach_refl s : reach s s
  | reach_step s s1 s2 : flow_lazy_body ol single s = Ok (Next s1) -> reach s1 s2 -> reach s s2.
  Lemma reach_trans a b c : reach a b -> reach b c -> reach a c.
  Proof. intros H K. induction H as [|s s1 s2 B H IH]; [exact K|]. eapply reach_step; eauto. Qed.
  Lemma reach_one a b : flow_lazy_body ol single a = Ok (Next b) -> reach a b.
  Proof. intros H. eapply reach_step; [exact H|apply reach_refl]. Qed.
  Lemma reach_runs a b c : reach a b -> flow_lazy_body ol single b = Ok (Done c) -> runs (flow_lazy_body ol single) a c.
  Proof. intros H K. induction H as [|s s1 s2 B H IH]; [apply runs_done, K|]. eapply runs_next; eauto. Qed.

  Lemma lazy_char c s st : (c < 128)%N -> ascii s -> c <> q -> (single = false -> c <> 92%N \/ at_is s 0 34 = false) -> c <> 10%N -> c <> 13%N ->
    flow_lazy_body ol single (c :: s, st) = Ok (Next (s, supd st 1 0 1)).
  Proof.
    intros C A Q D B1 B2. unfold flow_lazy_body. rewrite cache_static by exact LX. cbn [bind is_empty].
    assert (P : single && at_is (c :: s) 0 39 && at_is (c :: s) 1 39 || negb single && at_is (c :: s) 0 92 && at_is (c :: s) 1 34 = false).
    { unfold at_is at 1 3. cbn [nth_error]. change (at_is (c :: s) 1 34) with (at_is s 0 34). destruct single; cbn [andb negb orb].
      - replace (c =? 39)%N with false by lia. reflexivity.
      - destruct (D eq_refl) as [D'|D']; [replace (c =? 92)%N with false by lia; reflexivity|rewrite D', andb_false_r; reflexivity]. }
    rewrite P. assert (Q' : single && at_is (c :: s) 0 39 || negb single && at_is (c :: s) 0 34 = false).
    { unfold at_is. cbn [nth_error]. destruct single; cbn [andb negb orb]; [rewrite orb_false_r|]; apply N.eqb_neq; exact Q. }
    rewrite Q'. rewrite break_head by exact C. replace (c =? 13)%N with false by (symmetry; apply N.eqb_neq; assumption). replace (c =? 10)%N with false by (symmetry; apply N.eqb_neq; assumption). cbn [orb].
    rewrite width_ascii by exact C. rewrite adv_ascii; [reflexivity|constructor; assumption|apply le_n_S, Nat.le_0_l].
  Qed.
  Lemma supd_add st a b : supd (supd st a 0 a) b 0 b = supd st (a + b) 0 (a + b).
  Proof. unfold supd. cbn. f_equal; lia. Qed.
  Lemma supd_zero st : supd st 0 0 0 = st.
  Proof. destruct st. unfold supd. cbn. f_equal; lia. Qed.
  (** A run of ordinary characters. *)
  Lemma lazy_chars e : forall s st, single = false -> Forall (fun c => (c < 128)%N /\ c <> 34%N /\ c <> 92%N /\ c <> 10%N /\ c <> 13%N) e -> ascii s ->
    reach (e ++ s, st) (s, supd st (List.length e) 0 (List.length e)).
  Proof.
    induction e as [|c e IH]; intros s st F H A; cbn [app List.length].
    - rewrite supd_zero. apply reach_refl.
    - inversion H as [|? ? (C1 & C2 & C3 & C4 & C5) H']; subst.
      assert (A' : ascii (e ++ s)) by (apply ascii_app; [eapply Forall_impl; [|exact H']; cbn; tauto|exact A]).
      eapply reach_step; [apply lazy_char; auto; rewrite F; exact C2|].
      eapply eq_ind with (P := fun x => reach _ (s, x)); [apply IH; assumption|]. rewrite supd_add. f_equal.
  Qed.

  Lemma no_borrow_st base s s' : f_no_borrow base s = Ok s' -> f_buf s' = f_buf s /\ f_st s' = f_st s.
  Proof.
    unfold f_no_borrow. destruct (f_bor s); [|intros H; assert (s' = s) as -> by congruence; auto]. intros H. apply bind_inv in H as (t & _ & H).
    assert (s' = mkF (f_buf s) (f_st s) (f_scr s ++ t) false) as -> by congruence. auto.
  Qed.
  Lemma f_adv_st s n s' : f_adv s n = Ok s' -> adv (f_buf s) (f_st s) n = Ok (f_buf s', f_st s').
  Proof.
    unfold f_adv. intros H. apply bind_inv in H as ([b st] & A & H).
    assert (s' = mkF b st (f_scr s) (f_bor s)) as -> by congruence. exact A.
  Qed.
  Lemma f_adv_line_st s s' : f_adv_line s = Ok s' -> adv_line (f_buf s) (f_st s) = Ok (f_buf s', f_st s').
  Proof.
    unfold f_adv_line. intros H. apply bind_inv in H as ([b st] & A & H).
    assert (s' = mkF b st (f_scr s) (f_bor s)) as -> by congruence. exact A.
  Qed.
  Lemma push_head_st s : f_buf (f_push_head s) = f_buf s /\ f_st (f_push_head s) = f_st s.
  Proof. unfold f_push_head. destruct (f_bor s); auto. Qed.

  Lemma escape_chars e c : denotes e c -> exists x ds, e = 92%N :: x :: ds /\ (x < 128)%N /\ x <> 10%N /\ x <> 13%N /\
    Forall (fun c => (c < 128)%N /\ c <> 34%N /\ c <> 92%N /\ c <> 10%N /\ c <> 13%N) ds /\ (x = 34%N -> ds = []).
  Proof.
    intros D. inversion D as [x v I|x n ds I L H]; subst.
    - exists x, []. split; [reflexivity|]. cbn in I.
      assert (X : (x < 128)%N /\ x <> 10%N /\ x <> 13%N).
      { repeat (destruct I as [I|I]; [assert (Y := f_equal fst I); cbn in Y; subst x; lia|]). destruct I. }
      destruct X as (X1 & X2 & X3). repeat (split; [assumption|]). split; [constructor|reflexivity].
    - exists x, ds. split; [reflexivity|]. cbn in I.
      assert (x = 120 \/ x = 117 \/ x = 85)%N as X by (intuition congruence).
      split; [lia|]. split; [lia|]. split; [lia|]. split; [|lia].
      eapply Forall_impl; [|exact H]. intros d Hd. apply is_hex_iff in Hd. unfold is_hex_byte, is_digit, rng in Hd. lia.
  Qed.

  Lemma word_reach base s esc s' esc' : ascii (f_buf s) -> (single = false -> no_double (f_buf s)) ->
    flow_word_body o base single (s, esc) = Ok (Next (s', esc')) -> reach (f_buf s, f_st s) (f_buf s', f_st s').
  Proof.
    intros A D. unfold flow_word_body. rewrite cache_static by exact OX. cbn [bind].
    destruct (is_wsZ (f_buf s)) eqn:W; [discriminate|].
    destruct (f_buf s) as [|c b] eqn:FB; [discriminate|].
    assert (C : (c < 128)%N) by (inversion A; assumption). assert (AB : ascii b) by (inversion A; assumption).
    assert (NB : c <> 10%N /\ c <> 13%N /\ c <> 32%N /\ c <> 9%N).
    { unfold is_wsZ in W. rewrite break_head in W by exact C. unfold is_blank, at_is in W. cbn in W. lia. }
    destruct (single && at_is (c :: b) 0 39 && at_is (c :: b) 1 39) eqn:P1.
    { intros B. apply bind_inv in B as (s1 & N1 & B). apply bind_inv in B as (s2 & A2 & B).
      assert (s' = s2) as -> by congruence. apply no_borrow_st in N1 as [E1 E2]. apply f_adv_st in A2. cbn [f_push f_buf f_st] in A2.
      rewrite E1, E2, FB in A2. apply reach_one. unfold flow_lazy_body. rewrite cache_static by exact LX. cbn [bind is_empty].
      rewrite P1. cbn [orb]. rewrite A2. reflexivity. }
    destruct (single && at_is (c :: b) 0 39 || negb single && at_is (c :: b) 0 34) eqn:P2; [discriminate|].
    assert (Q : c <> q).
    { unfold at_is in P2. cbn [nth_error] in P2. destruct single; cbn in P2; lia. }
    destruct (negb single && at_is (c :: b) 0 92 && is_break (skipn 1 (c :: b))) eqn:P3.
    { intros B. apply bind_inv in B as (s1 & N1 & B). apply bind_inv in B as (s2 & A2 & B).
      assert (s' = s2) as -> by congruence. apply no_borrow_st in N1 as [E1 E2]. apply f_adv_st in A2.
      rewrite E1, E2, FB, adv_ascii in A2 by (assumption || apply le_n_S, Nat.le_0_l).
      apply reach_one. rewrite lazy_char; [cbn [skipn] in A2; congruence|assumption..| |tauto|tauto].
      intros _. right. apply andb_true_iff in P3 as [_ P3]. cbn [skipn] in P3. destruct b as [|d b]; [reflexivity|].
      inversion AB; subst. rewrite break_head in P3 by assumption. unfold at_is. cbn [nth_error]. lia. }
    destruct (negb single && at_is (c :: b) 0 92) eqn:P4.
    { intros B. apply bind_inv in B as (s1 & N1 & B). apply bind_inv in B as ([w n] & U & B). apply bind_inv in B as (s2 & A2 & B).
      assert (s' = s2) as -> by congruence. apply no_borrow_st in N1 as [E1 E2]. apply f_adv_st in A2. cbn [f_push f_buf f_st] in A2.
      rewrite E1, E2, FB in A2. rewrite E1, FB in U. apply andb_true_iff in P4 as [SF P4]. destruct single eqn:SI; [discriminate|].
      destruct (unescape_denotes _ _ _ _ P4 U) as (e & v & EQ & LE & DE & _).
      destruct (escape_chars _ _ DE) as (x & ds & -> & X1 & X2 & X3 & X4 & X5).
      apply adv_ok in A2 as (E3 & E4 & _). rewrite E3, E4. cbn [List.length] in LE. subst n.
      set (r := skipn (S (S (List.length ds))) (c :: b)) in *. assert (AR : ascii r) by (apply ascii_skipn, A).
      rewrite EQ. cbn [app]. assert (NX : x <> 92%N).
      { intros ->. apply (D eq_refl [] (ds ++ r)). rewrite EQ. reflexivity. }
      clear - OX LX SI AR X1 X2 X3 X4 X5 NX.
      destruct (N.eq_dec x 34) as [->|NQ].
      - rewrite (X5 eq_refl) in *. cbn [app List.length]. apply reach_one. unfold flow_lazy_body.
        rewrite cache_static by exact LX. cbn [bind is_empty]. rewrite SI. change (at_is (92%N :: 34%N :: r) 0 92) with true. change (at_is (92%N :: 34%N :: r) 1 34) with true.
        cbn [andb negb orb]. rewrite adv_ascii; [reflexivity|constructor; [reflexivity|constructor; [reflexivity|exact AR]]|apply le_n_S, le_n_S, Nat.le_0_l].
      - eapply reach_step.
        { apply lazy_char; [reflexivity| |rewrite SI; discriminate| |discriminate|discriminate].
          - constructor; [exact X1|]. apply ascii_app; [eapply Forall_impl; [|exact X4]; cbn; tauto|exact AR].
          - intros _. right. unfold at_is. cbn [nth_error]. apply N.eqb_neq, NQ. }
        eapply eq_ind with (P := fun y => reach _ (r, y)); [apply (lazy_chars (x :: ds)); [exact SI| |exact AR]|].
        + constructor; [auto|exact X4].
        + rewrite supd_add. reflexivity. }
    intros B. apply bind_inv in B as (s2 & A2 & B). assert (s' = s2) as -> by congruence. apply f_adv_st in A2.
    destruct (push_head_st s) as [E1 E2]. rewrite E1, E2, FB, adv_ascii in A2 by (assumption || apply le_n_S, Nat.le_0_l).
    apply reach_one. rewrite lazy_char; [cbn [skipn] in A2; congruence|assumption..| |tauto|tauto].
    intros SF. left. rewrite SF in P4. unfold at_is in P4. cbn in P4. lia.
  Qed.

  (** The texts of later states are ends of the earlier ones. *)
  Lemma adv_skipn s st n b st' : adv s st n = Ok (b, st') -> b = skipn n s.
  Proof. intros H. apply adv_ok in H. tauto. Qed.
  Lemma lazy_next_suffix b st b' st' : flow_lazy_body ol single (b, st) = Ok (Next (b', st')) -> exists n, b' = skipn n b.
  Proof.
    unfold flow_lazy_body. rewrite cache_static by exact LX. cbn [bind]. destruct (is_empty b); [discriminate|].
    destruct (_ || _).
    { intros H. apply bind_inv in H as ([x y] & A & H). assert (x = b') as <- by congruence. apply adv_skipn in A. eauto. }
    destruct (_ || _); [intros H; apply bind_inv in H as ([x y] & A & H); discriminate|].
    destruct (is_break b).
    { intros H. apply bind_inv in H as ([x y] & A & H). assert (x = b') as <- by congruence. apply adv_line_ok in A as (-> & _). eauto. }
    intros H. apply bind_inv in H as ([x y] & A & H). assert (x = b') as <- by congruence. apply adv_skipn in A. eauto.
  Qed.
  Lemma reach_suffix x y : reach x y -> exists n, fst y = skipn n (fst x).
  Proof.
    induction 1 as [s|[b st] [b1 st1] s2 B H IH]; [exists 0; reflexivity|].
    apply lazy_next_suffix in B as (n & ->). destruct IH as (m & ->). cbn [fst]. rewrite skipn_skipn. eauto.
  Qed.

  (** White space. *)
  Lemma ws_reach base s esc ws lines s' esc' ws' lines' : ascii (f_buf s) ->
    flow_ws_body o base (s, esc, ws, lines) = Ok (Next (s', esc', ws', lines')) -> reach (f_buf s, f_st s) (f_buf s', f_st s').
  Proof.
    intros A. unfold flow_ws_body. rewrite cache_static by exact OX. cbn [bind].
    destruct (is_blank (f_buf s)) eqn:BL.
    { intros B. apply bind_inv in B as (s1 & A1 & B). assert (s' = s1) as -> by congruence. apply f_adv_st in A1.
      destruct (push_head_st s) as [E1 E2]. rewrite E1, E2 in A1. destruct (f_buf s) as [|c b] eqn:FB; [discriminate|].
      rewrite adv_ascii in A1 by (assumption || cbn; lia). unfold is_blank, at_is in BL. cbn in BL.
      inversion A; subst. apply reach_one. rewrite lazy_char; [cbn [skipn] in A1; congruence|assumption|assumption| |lia|lia|lia].
      destruct single; lia. }
    destruct (is_break (f_buf s)) eqn:BR; [|discriminate].
    intros B. apply bind_inv in B as (s1 & N1 & B). apply no_borrow_st in N1 as [E1 E2].
    destruct (match esc with EStart => _ | _ => _ end) as [e1 w1]. apply bind_inv in B as (s2 & A2 & B).
    assert (s' = s2) as -> by congruence. apply f_adv_line_st in A2. rewrite E1, E2 in A2.
    apply reach_one. unfold flow_lazy_body. rewrite cache_static by exact LX. cbn [bind].
    destruct (f_buf s) as [|c b] eqn:FB; [discriminate|]. inversion A; subst. pose proof BR as BR'. rewrite break_head in BR' by assumption.
    cbn [is_empty]. unfold at_is at 1 3 5 6. cbn [nth_error].
    replace (c =? 39)%N with false by lia. replace (c =? 92)%N with false by lia. replace (c =? 34)%N with false by lia.
    rewrite !andb_false_r. cbn [orb andb]. rewrite BR, A2. reflexivity.
  Qed.
  Lemma word_runs base p r : runs (flow_word_body o base single) p r -> ascii (f_buf (fst p)) -> (single = false -> no_double (f_buf (fst p))) ->
    reach (f_buf (fst p), f_st (fst p)) (f_buf (fst (fst r)), f_st (fst (fst r))) /\
    (snd r = true -> at_is (f_buf (fst (fst r))) 0 q = true /\ at_is (f_buf (fst (fst r))) 0 39 && at_is (f_buf (fst (fst r))) 1 39 && single = false).
  Proof.
    induction 1 as [[s esc] r B|[s esc] [s1 esc1] r B H IH]; cbn [fst snd]; intros A D.
    - unfold flow_word_body in B. rewrite cache_static in B by exact OX. cbn [bind] in B.
      destruct (is_wsZ (f_buf s)); [assert (r = (s, esc, false)) as -> by congruence; cbn [fst snd]; split; [apply reach_refl|discriminate]|].
      destruct (single && at_is (f_buf s) 0 39 && at_is (f_buf s) 1 39) eqn:P1.
      { apply bind_inv in B as (s1 & _ & B). apply bind_inv in B as (s2 & _ & B). discriminate. }
      destruct (single && at_is (f_buf s) 0 39 || negb single && at_is (f_buf s) 0 34) eqn:P2.
      + assert (r = (s, esc, true)) as -> by congruence. cbn [fst snd]. split; [apply reach_refl|]. intros _.
        split; [destruct single; cbn [andb negb orb] in P2; [rewrite orb_false_r in P2|]; exact P2|].
        rewrite andb_comm, andb_assoc. exact P1.
      + exfalso. destruct (negb single && at_is (f_buf s) 0 92 && _).
        { apply bind_inv in B as (s1 & _ & B). apply bind_inv in B as (s2 & _ & B). discriminate. }
        destruct (negb single && at_is (f_buf s) 0 92).
        { apply bind_inv in B as (s1 & _ & B). apply bind_inv in B as ([w n] & _ & B). apply bind_inv in B as (s2 & _ & B). discriminate. }
        apply bind_inv in B as (s2 & _ & B). discriminate.
    - pose proof (word_reach base s esc s1 esc1 A D B) as R1. pose proof (reach_suffix _ _ R1) as (n & E). cbn [fst] in E.
      destruct IH as [R2 C]; cbn [fst].
      + rewrite E. apply ascii_skipn, A.
      + intros F. rewrite E. apply no_double_skipn, D, F.
      + split; [eapply reach_trans; eauto|exact C].
  Qed.
  Lemma ws_runs base p r : runs (flow_ws_body o base) p r -> ascii (f_buf (fst (fst (fst p)))) ->
    reach (f_buf (fst (fst (fst p))), f_st (fst (fst (fst p)))) (f_buf (fst (fst (fst r))), f_st (fst (fst (fst r)))).
  Proof.
    induction 1 as [[[[s esc] ws] lines] r B|[[[s esc] ws] lines] [[[s1 esc1] ws1] lines1] r B H IH]; cbn [fst]; intros A.
    - unfold flow_ws_body in B. rewrite cache_static in B by exact OX. cbn [bind] in B.
      destruct (is_blank (f_buf s)); [apply bind_inv in B as (s1 & _ & B); discriminate|].
      destruct (is_break (f_buf s)).
      { apply bind_inv in B as (s1 & _ & B). destruct (match esc with EStart => _ | _ => _ end) as [e1 w1]. apply bind_inv in B as (s2 & _ & B). discriminate. }
      assert (r = (s, esc, ws, lines)) as -> by congruence. apply reach_refl.
    - pose proof (ws_reach _ _ _ _ _ _ _ _ _ A B) as R1. eapply reach_trans; [exact R1|]. apply IH.
      destruct (reach_suffix _ _ R1) as (n & E). cbn [fst] in *. rewrite E. apply ascii_skipn, A.
  Qed.
  Lemma join_st base s esc ws lines s' : flow_join base s esc ws lines = Ok s' -> f_buf s' = f_buf s /\ f_st s' = f_st s.
  Proof.
    unfold flow_join. destruct lines as [|n]; [intros H; assert (s' = s) as -> by congruence; auto|].
    intros H. apply bind_inv in H as (s1 & N1 & H). apply no_borrow_st in N1 as [<- <-]. apply bind_inv in H as (scr & _ & H).
    destruct n; [destruct esc|]; match type of H with Ok ?x = _ => assert (s' = x) as -> by congruence end; auto.
  Qed.
  Lemma body_runs base s r : runs (flow_body o base single) s r -> ascii (f_buf s) -> (single = false -> no_double (f_buf s)) ->
    reach (f_buf s, f_st s) (f_buf r, f_st r) /\
    at_is (f_buf r) 0 q = true /\ at_is (f_buf r) 0 39 && at_is (f_buf r) 1 39 && single = false.
  Proof.
    induction 1 as [s r B|s s1 r B H IH]; intros A D; unfold flow_body in B; rewrite cache_static in B by exact OX; cbn [bind] in B;
      (destruct (is_doc_indicator _ _); [discriminate|]); (destruct (is_empty _); [discriminate|]);
      rewrite cache_static in B by exact OX; cbn [bind] in B; apply bind_inv in B as ([[s2 esc2] c] & W & B);
      unfold flow_word in W; apply loop_runs in W; apply word_runs in W as [R1 C]; try assumption; cbn [fst snd] in R1, C; destruct c.
    - assert (r = s2) as -> by congruence. split; [exact R1|]. apply C. reflexivity.
    - apply bind_inv in B as ([[[s3 esc3] ws] lines] & _ & B). apply bind_inv in B as (s4 & _ & B). discriminate.
    - discriminate.
    - apply bind_inv in B as ([[[s3 esc3] ws] lines] & V & B). apply bind_inv in B as (s4 & J & B).
      assert (s4 = s1) as -> by congruence. apply join_st in J as [E1 E2]. unfold flow_ws in V. apply loop_runs, ws_runs in V; cbn [fst] in *.
      + rewrite <- E1, <- E2 in V. pose proof (reach_trans _ _ _ R1 V) as R2. destruct (reach_suffix _ _ R2) as (n & E). cbn [fst] in E.
        destruct IH as [R3 K]; [rewrite E; apply ascii_skipn, A|intros F; rewrite E; apply no_double_skipn, D, F|].
        split; [eapply reach_trans; eauto|exact K].
      + destruct (reach_suffix _ _ R1) as (n & E). cbn [fst] in E. rewrite E. apply ascii_skipn, A.
  Qed.

  (** ** The lazy scan succeeds like the eager one *)
  Lemma leaf_fuel {A B} o' (P : B -> Prop) pan (m : sres A) k : leaf o' P pan (bind m k) -> m <> Fuel.
  Proof. intros H ->. exact H. Qed.
  Lemma lazy_flow_ok c r st t n st' : ascii (c :: r) -> c = q -> (single = false -> no_double (c :: r)) ->
    scan_flow_scalar_eager o (c :: r) st single = Ok (t, n, st') ->
    n <= List.length (c :: r) /\
    scan_flow_scalar_lazy ol (c :: r) st single = Ok (DFlow (no_extend ol) (firstn n (c :: r)) st single, n, st').
  Proof.
    intros A -> D E. set (base := q :: r) in *.
    unfold scan_flow_scalar_eager in E. rewrite cache_static in E by exact OX. cbn [bind] in E.
    apply bind_inv in E as (s0 & A0 & E). apply f_adv_st in A0. cbn [f_buf f_st] in A0. rewrite adv_ascii in A0 by (assumption || cbn; lia).
    apply bind_inv in E as (s1 & L & E). apply bind_inv in E as (txt & _ & E). rewrite cache_static in E by exact OX. cbn [bind] in E.
    apply bind_inv in E as (s2 & A2 & E). apply f_adv_st in A2.
    assert (n = consumed base (f_buf s2) /\ st' = f_st s2) as [-> ->] by (split; congruence).
    assert (B0 : f_buf s0 = skipn 1 base) by congruence. assert (S0 : f_st s0 = supd st 1 0 1) by congruence.
    apply loop_runs in L. apply body_runs in L as (R & C1 & C2).
    2: { rewrite B0. apply ascii_skipn, A. } 2: { intros F. rewrite B0. apply no_double_skipn, D, F. }
    split; [unfold consumed; lia|].
    assert (DN : flow_lazy_body ol single (f_buf s1, f_st s1) = Ok (Done (f_buf s2, f_st s2))).
    { unfold flow_lazy_body. rewrite cache_static by exact LX. cbn [bind].
      destruct (f_buf s1) as [|a b] eqn:FB; [discriminate|]. cbn [is_empty].
      assert (single && at_is (a :: b) 0 39 && at_is (a :: b) 1 39 || negb single && at_is (a :: b) 0 92 && at_is (a :: b) 1 34 = false) as ->.
      { destruct single; cbn [andb orb negb].
        - rewrite andb_true_r in C2. rewrite C2. reflexivity.
        - unfold at_is at 1. unfold at_is in C1. cbn [nth_error] in *. replace (a =? 92)%N with false by lia. reflexivity. }
      assert (single && at_is (a :: b) 0 39 || negb single && at_is (a :: b) 0 34 = true) as -> by (destruct single; cbn [andb orb negb]; rewrite C1; reflexivity).
      rewrite A2. reflexivity. }
    pose proof (reach_runs _ _ _ R DN) as RU.
    assert (Q : (q < 128)%N /\ q <> 10%N /\ q <> 13%N) by (destruct single; lia).
    pose proof (scan_flow_lazy_leaf ol q r st single (proj1 Q) (proj1 (proj2 Q)) (proj2 (proj2 Q)) (valid_ascii _ A)) as LF. fold base in LF.
    unfold scan_flow_scalar_lazy in *. rewrite cache_static in * by exact LX. cbn [bind] in *. rewrite adv_ascii in * by (assumption || cbn; lia).
    cbn [bind] in *. rewrite <- B0, <- S0 in *.
    match goal with |- context [loop ?f ?b ?x] => assert (X : loop f b x = Ok (f_buf s2, f_st s2)) end.
    { apply (runs_loop _ _ _ RU). exact (leaf_fuel _ _ _ _ _ LF). }
    rewrite X. cbn [bind]. rewrite slice_ascii; [|exact A|lia|unfold consumed; lia]. cbn [bind skipn]. rewrite Nat.sub_0_r. reflexivity.
  Qed.
End Flow.
