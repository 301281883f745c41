(** Skipping white space and comments: the rest of the text is read as if it stood
    alone, but for position and line. *)
From Verif Require Import StreamFacts.
From Verif Require QuotedFacts.
From Verif Require Export Shift SpecGap.
From Coq Require Import Lia ZifyBool ZifyN ZifyNat.
Open Scope nat_scope.

Definition nc (s : str) : Prop := match s with [] => True | c :: _ => is_cont c = false end.

Lemma loop_more {E S R} (body : S -> res E (step S R)) n : forall s k, loop n body s <> Fuel -> loop (n + k) body s = loop n body s.
Proof.
  induction n as [|n IH]; intros s k H; [exfalso; apply H; reflexivity|]. cbn [loop Nat.add] in *.
  destruct (body s) as [[s1|r]| | |]; auto.
Qed.

Lemma nc_boundary (s : str) n : n <= List.length s -> nc (skipn n s) -> is_boundary s n = true.
Proof.
  intros L H. destruct n as [|n]; [reflexivity|]. unfold is_boundary.
  assert (X : forall (l : str) m, nth_error l m = nth_error (skipn m l) 0).
  { clear. induction l as [|a l IH]; intros [|m]; try reflexivity. cbn [nth_error skipn]. apply IH. }
  rewrite X. destruct (skipn (Datatypes.S n) s) as [|c r] eqn:E; cbn [nth_error].
  - apply (f_equal (@List.length _)) in E. rewrite skipn_length in E. cbn [List.length] in E. apply Nat.eqb_eq. lia.
  - cbn [nc] in H. rewrite H. reflexivity.
Qed.
Lemma boundary_nc (s : str) n : nc s -> is_boundary s n = true -> nc (skipn n s).
Proof.
  intros H B. destruct n as [|n]; [exact H|]. unfold is_boundary in B.
  assert (X : forall (l : str) m, nth_error l m = nth_error (skipn m l) 0).
  { clear. induction l as [|a l IH]; intros [|m]; try reflexivity. cbn [nth_error skipn]. apply IH. }
  rewrite X in B. destruct (skipn (Datatypes.S n) s) as [|c r]; [exact Logic.I|]. cbn [nth_error] in B. cbn [nc]. destruct (is_cont c); [discriminate|reflexivity].
Qed.
Lemma skip_app (a b : str) : nc b -> @skip scan_error (a ++ b) (List.length a) = Ok b.
Proof.
  intros H. unfold skip. rewrite skipn_app, skipn_all, Nat.sub_diag. cbn [app skipn].
  rewrite nc_boundary; [reflexivity| |]. { rewrite app_length. lia. }
  rewrite skipn_app, skipn_all, Nat.sub_diag. exact H.
Qed.
Lemma reads_nc a sa b sb : reads a sa b sb -> nc a -> nc b.
Proof. induction 1; intros H'; auto; apply IHreads; apply boundary_nc; assumption. Qed.
Lemma skip_reads a sa b sb pre : reads a sa b sb -> nc a -> @skip scan_error (pre ++ a) (consumed (pre ++ a) b) = Ok b.
Proof.
  intros R H. pose proof (reads_nc _ _ _ _ R H) as HB. destruct (reads_len _ _ _ _ R) as (L & _ & E).
  assert (X : skipn (consumed (pre ++ a) b) (pre ++ a) = b).
  { unfold consumed. rewrite app_length, skipn_app.
    rewrite skipn_all2 by lia. cbn [app]. rewrite E at 2. f_equal. lia. }
  unfold skip. rewrite nc_boundary; [rewrite X; reflexivity| |rewrite X; exact HB].
  unfold consumed. lia.
Qed.

Section Eat.
  Variable o : flags.
  Hypothesis Static : extendable o = false.
  Notation body := (eat_ws_body o true).

  Lemma ascii_nc c s : (c < 128)%N -> nc (c :: s).
  Proof. intros H. cbn [nc]. unfold is_cont. lia. Qed.
  Lemma adv1 c s st : nc s -> adv (c :: s) st 1 = Ok (s, supd st 1 0 1).
  Proof. intros H. unfold adv. pose proof (skip_app [c] s H) as X. cbn [app List.length] in X. rewrite X. reflexivity. Qed.
  Lemma blank_step c s st ch : space_or_tab c -> nc s -> body (c :: s, st, ch) = Ok (Next (s, supd st 1 0 1, ch)).
  Proof.
    intros H N. unfold eat_ws_body. rewrite QuotedFacts.cache_static by exact Static. cbn [bind]. cbv zeta.
    rewrite adv1 by exact N. destruct H as [-> | ->]; reflexivity.
  Qed.
  Lemma blanks_eat w s : Forall space_or_tab w -> nc s -> forall f st ch,
    loop (List.length w + f) body (w ++ s, st, ch) = loop f body (s, supd st (List.length w) 0 (List.length w), ch).
  Proof.
    intros W N. assert (NW : nc (w ++ s)).
    { destruct W as [|c w [-> | ->] W]; [exact N|reflexivity|reflexivity]. }
    revert NW. induction W as [|c w B W IH]; intros NW f st ch.
    - cbn [app List.length Nat.add]. unfold supd. rewrite !Nat.add_0_r. destruct st; reflexivity.
    - assert (N2 : nc (w ++ s)). { destruct W as [|c1 w1 [-> | ->] W1]; [exact N|reflexivity|reflexivity]. }
      cbn [app List.length Nat.add loop]. rewrite blank_step by assumption. rewrite IH by exact N2. f_equal. f_equal. f_equal.
      unfold supd. cbn [sread slines scol]. f_equal; lia.
  Qed.
  Lemma break_eat b s st ch f : b <> [] -> break_len (b ++ s) = List.length b -> nc s ->
    loop (S f) body (b ++ s, st, ch) = loop f body (s, supd st (List.length b) 1 0, false).
  Proof.
    intros B L N. rewrite break_len_amt in L. destruct b as [|c b]; [congruence|]. cbn [loop].
    assert (X : body (((c :: b) ++ s), st, ch) = Ok (Next (s, supd st (List.length (c :: b)) 1 0, false))).
    { unfold eat_ws_body. rewrite QuotedFacts.cache_static by exact Static. cbn [bind]. cbv zeta.
      assert (is_break ((c :: b) ++ s) = true) as -> by (unfold is_break; rewrite L; reflexivity).
      assert (is_blank ((c :: b) ++ s) = false) as ->.
      { unfold is_blank, at_is. cbn [app nth_error]. cbn [app] in L. unfold break_amt in L.
        destruct (c =? 32)%N eqn:E1; [exfalso; assert (c = 32%N) as -> by lia; cbn in L; destruct (b ++ s) as [|? [|? ?]]; discriminate|].
        destruct (c =? 9)%N eqn:E2; [exfalso; assert (c = 9%N) as -> by lia; cbn in L; destruct (b ++ s) as [|? [|? ?]]; discriminate|]. reflexivity. }
      unfold adv_line. rewrite L, skip_app by exact N. reflexivity. }
    rewrite X. reflexivity.
  Qed.
  Lemma comment_eat w s : Forall (fun c => c < 128 /\ c <> 10 /\ c <> 13)%N w -> nc s -> forall f st,
    loop (List.length w + f) body (w ++ s, st, true) = loop f body (s, supd st (List.length w) 0 (List.length w), true).
  Proof.
    intros W N. induction W as [|c w B W IH]; intros f st.
    - cbn [app List.length Nat.add]. unfold supd. rewrite !Nat.add_0_r. destruct st; reflexivity.
    - assert (N2 : nc (w ++ s)). { destruct W as [|c1 w1 B1 W1]; [exact N|]. apply ascii_nc. apply B1. }
      cbn [app List.length Nat.add loop].
      assert (X : body (c :: w ++ s, st, true) = Ok (Next (w ++ s, supd st 1 0 1, true))).
      { unfold eat_ws_body. rewrite QuotedFacts.cache_static by exact Static. cbn [bind]. cbv zeta.
        assert (is_break (c :: w ++ s) = false) as ->.
        { unfold is_break, break_amt. destruct B as (B1 & B2 & B3).
          destruct (c =? 13)%N eqn:E1; [lia|]. destruct (c =? 10)%N eqn:E2; [lia|].
          assert ((c =? 194)%N = false) as -> by lia. assert ((c =? 226)%N = false) as -> by lia. cbn [andb].
          destruct (w ++ s) as [|? [|? ?]]; reflexivity. }
        rewrite adv1 by exact N2. cbn [bind]. destruct (is_blank _); [reflexivity|]. destruct (true && at_is _ 0 35); [reflexivity|]. reflexivity. }
      rewrite X. rewrite IH. f_equal. f_equal. f_equal. unfold supd. cbn [sread slines scol]. f_equal; lia.
  Qed.
  Lemma hash_eat s f st : nc s -> loop (S f) body (35%N :: s, st, false) = loop f body (s, supd st 1 0 1, true).
  Proof.
    intros H. cbn [loop].
    assert (X : body (35%N :: s, st, false) = Ok (Next (s, supd st 1 0 1, true))).
    { unfold eat_ws_body. rewrite QuotedFacts.cache_static by exact Static. cbn [bind]. cbv zeta. rewrite adv1 by exact H.
      assert (is_break (35%N :: s) = false) as -> by (unfold is_break, break_amt; cbn [N.eqb Pos.eqb andb]; destruct s as [|? [|? ?]]; reflexivity).
      reflexivity. }
    rewrite X. reflexivity.
  Qed.

  Lemma break_nc b s : b <> [] -> break_len (b ++ s) = List.length b -> nc (b ++ s).
  Proof.
    intros B L. destruct b as [|c b]; [congruence|]. cbn [app nc]. rewrite break_len_amt in L. unfold break_amt in L. cbn [app] in L.
    unfold is_cont. destruct (c =? 13)%N eqn:E1; [lia|]. destruct (c =? 10)%N eqn:E2; [lia|].
    destruct (c =? 194)%N eqn:E3; [lia|]. destruct (c =? 226)%N eqn:E4; [lia|]. cbn [andb List.length] in L.
    destruct (b ++ s) as [|? [|? ?]]; discriminate.
  Qed.
  Lemma filler_nc t w x n : filler t w x n -> nc t -> nc (w ++ t).
  Proof.
    intros H N. destruct H as [s W|s c b w x n W C B L H].
    - destruct W as [|c w [-> | ->] W]; [exact N|reflexivity|reflexivity].
    - destruct W as [|c1 s1 [-> | ->] W]; [|reflexivity|reflexivity]. cbn [app].
      destruct C as [-> | (r & -> & R)]; [|reflexivity]. cbn [app]. rewrite <- app_assoc. apply break_nc; assumption.
  Qed.
  Lemma filler_eat t w x n : filler t w x n -> nc t -> exists m nb, m <= List.length w /\ (nb = 0 <-> x = false) /\
    forall f st, loop (m + f) body (w ++ t, st, false) =
      loop f body (t, mkStats (sread st + List.length w) (slines st + nb) (if x then n else scol st + n), false).
  Proof.
    intros H N. induction H as [s W|s c b w x n W C B L H IH].
    - exists (List.length s), 0. split; [lia|]. split; [tauto|]. intros f st. rewrite blanks_eat by assumption. unfold supd. reflexivity.
    - destruct IH as (m & nb & M & X & IH). pose proof (filler_nc _ _ _ _ H N) as NW.
      assert (NB : nc (b ++ w ++ t)) by (apply break_nc; assumption).
      exists (List.length s + (List.length c + (1 + m))), (S nb). rewrite !app_length. split; [destruct b; [congruence|]; cbn [List.length]; lia|].
      split; [split; [lia|discriminate]|].
      intros f st. rewrite <- !app_assoc.
      replace (List.length s + (List.length c + (1 + m)) + f) with (List.length s + (List.length c + (1 + (m + f)))) by lia.
      assert (CB : nc (c ++ b ++ w ++ t)) by (destruct C as [-> | (r & -> & R)]; [exact NB|reflexivity]).
      rewrite blanks_eat by assumption.
      assert (exists ch st1, loop (List.length c + (1 + (m + f))) body (c ++ b ++ w ++ t, supd st (List.length s) 0 (List.length s), false) =
        loop (1 + (m + f)) body (b ++ w ++ t, st1, ch) /\ sread st1 = sread st + List.length s + List.length c /\ slines st1 = slines st) as (ch & st1 & E1 & R1 & R2).
      { destruct C as [-> | (r & -> & R)].
        - cbn [app List.length Nat.add]. eexists _, _. split; [reflexivity|]. unfold supd. cbn [sread slines]. lia.
        - assert (NR : nc (r ++ b ++ w ++ t)).
          { destruct R as [|c1 r1 B1 R]; [exact NB|]. apply ascii_nc, B1. }
          cbn [app List.length]. change (S (List.length r) + (1 + (m + f))) with (S (List.length r + (1 + (m + f)))).
          rewrite hash_eat by exact NR. rewrite comment_eat by assumption. eexists _, _. split; [reflexivity|].
          unfold supd. cbn [sread slines]. lia. }
      etransitivity; [exact E1|]. cbn [Nat.add]. rewrite break_eat by assumption. rewrite IH. f_equal. f_equal. f_equal. unfold supd. cbn [sread slines scol].
      f_equal; [lia|lia|destruct x; lia].
  Qed.

  Lemma eat_rest t w x n : filler t w x n -> nc t -> exists nb, (nb = 0 <-> x = false) /\
    eat_whitespace o (w ++ t) stats0 true = rmap (sh2 (List.length w) nb) (eat_whitespace o t (mkStats 0 0 n) true).
  Proof.
    intros H N. destruct (filler_eat _ _ _ _ H N) as (m & nb & M & X & E). exists nb. split; [exact X|].
    unfold eat_whitespace. rewrite <- eat_loop_sh.
    assert (F : fuel_of (w ++ t) = m + (fuel_of t + (List.length w - m))) by (unfold fuel_of; rewrite app_length; lia).
    rewrite F, E. cbn [stats0 sread slines scol Nat.add].
    assert (mkStats (List.length w) nb (if x then n else n) = sh (List.length w) nb (mkStats 0 0 n)) as ->.
    { unfold sh. cbn [sread slines scol Nat.add]. destruct x; reflexivity. }
    apply loop_more. pose proof (eat_ws_leaf o t (sh (List.length w) nb (mkStats 0 0 n)) true) as LF. unfold eat_whitespace in LF.
    intros Q. rewrite Q in LF. exact LF.
  Qed.
End Eat.
