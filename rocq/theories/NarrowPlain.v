(** Plain scalars: scanning lazily and evaluating the deferred text gives what scanning
    eagerly gives. *)
From Verif Require Import QuotedFacts PlainSem PlainFacts Utf8Facts SpecUtf8 LazyFacts Loops.
From Verif Require CutFacts.
From Verif Require Export Narrow.
From Coq Require Import Lia ZifyBool ZifyN ZifyNat.
Open Scope nat_scope.

Definition ws_byte (c : N) : Prop := (c = 32 \/ c = 9 \/ c = 10 \/ c = 13)%N.
Lemma ws_head c s : (c < 128)%N -> is_ws (c :: s) = true <-> ws_byte c.
Proof.
  intros C. unfold is_ws, ws_byte. rewrite break_head by exact C. unfold is_blank, at_is. cbn [nth_error]. lia.
Qed.
Lemma amt_bytes s : ascii s -> is_break s = true -> 0 < break_amt s <= List.length s /\ Forall ws_byte (firstn (break_amt s) s).
Proof.
  destruct s as [|a s]; [discriminate|]. intros A. inversion A; subst. intros B. rewrite break_head in B by assumption.
  unfold break_amt. destruct (a =? 13)%N eqn:E1.
  - destruct (at_is s 0 10) eqn:E2.
    + destruct s as [|b s]; [discriminate|]. unfold at_is in E2. cbn [nth_error] in E2. cbn [List.length firstn].
      split; [lia|]. unfold ws_byte. constructor; [lia|constructor; [lia|constructor]].
    + cbn [List.length firstn]. split; [lia|]. unfold ws_byte. constructor; [lia|constructor].
  - destruct (a =? 10)%N eqn:E2; [|lia]. cbn [List.length firstn]. split; [lia|]. unfold ws_byte. constructor; [lia|constructor].
Qed.
Lemma wsZ_split s : is_wsZ s = is_ws s || is_empty s.
Proof. unfold is_wsZ, is_ws. destruct (is_break s), (is_blank s), (is_empty s); reflexivity. Qed.
Lemma last_of {A} (w : list A) : w <> [] -> exists y l, w = y ++ [l].
Proof. intros N. destruct (exists_last N) as (y & l & E). eauto. Qed.

Section Plain.
  Variables (o ol oe : flags) (indent : nat) (block : bool).
  Hypothesis OX : extendable o = false.
  Hypothesis LX : extendable ol = false.
  Hypothesis EX : extendable oe = false.
  Notation flow := (negb block).

  (** Characters the text of a deferred plain scalar can end with. *)
  Definition term (l : N) : Prop := ws_byte l \/ (block = false /\ is_flow_ind_byte l = true).

  (** ** The lazy scan follows the eager one *)
  Lemma word_step s s' : ascii (f_buf s) -> plain_word_body o flow s = Ok (Next s') ->
    exists c, f_buf s = c :: f_buf s' /\ f_st s' = supd (f_st s) 1 0 1 /\ ~ term c /\
    plain_lazy_word_body ol flow (f_buf s, f_st s) = Ok (Next (f_buf s', f_st s')).
  Proof.
    intros A. unfold plain_word_body, plain_lazy_word_body. rewrite !cache_static by (exact OX || exact LX). cbn [bind].
    destruct (is_wsZ (f_buf s)) eqn:W; [discriminate|]. destruct (plain_end flow (f_buf s)) eqn:P; [discriminate|].
    intros B. apply bind_inv in B as (s1 & B & E). assert (s1 = s') as -> by congruence. apply f_adv_st in B. destruct (push_head_st s) as [E1 E2]. rewrite E1, E2 in B.
    destruct (f_buf s) as [|c b] eqn:FB; [rewrite wsZ_split, orb_true_r in W; discriminate|].
    rewrite adv_ascii in * by (assumption || apply le_n_S, Nat.le_0_l). cbn [skipn bind] in *.
    assert (b = f_buf s') as -> by congruence. assert (f_st s' = supd (f_st s) 1 0 1) as -> by congruence.
    exists c. split; [reflexivity|]. split; [reflexivity|]. split; [|reflexivity].
    inversion A; subst. rewrite wsZ_split in W. apply orb_false_iff in W as [W _].
    intros [T|[T1 T2]]; [apply (ws_head c (f_buf s')) in T; [congruence|assumption]|].
    unfold plain_end, is_flow_ind_at in P. cbn [nth_error] in P. rewrite T1, T2 in P. rewrite orb_true_r in P. discriminate.
  Qed.
  Definition stop_of (b : str) : option nat := if is_wsZ b then None else Some (if is_ws_at b 1 then 2 else 1).
  Lemma word_follow s r : runs (plain_word_body o flow) s r -> ascii (f_buf s) ->
    (exists w, f_buf s = w ++ f_buf r) /\ (is_wsZ (f_buf r) = true \/ plain_end flow (f_buf r) = true) /\
    runs (plain_lazy_word_body ol flow) (f_buf s, f_st s) (f_buf r, f_st r, stop_of (f_buf r)).
  Proof.
    induction 1 as [s r B|s s' r B H IH]; intros A.
    - unfold plain_word_body in B. rewrite cache_static in B by exact OX. cbn [bind] in B.
      assert (r = s /\ (is_wsZ (f_buf s) = true \/ plain_end flow (f_buf s) = true)) as [-> D].
      { destruct (is_wsZ (f_buf s)); [split; [congruence|auto]|]. destruct (plain_end flow (f_buf s)); [split; [congruence|auto]|].
        apply bind_inv in B as (x & _ & B). discriminate. }
      split; [exists []; reflexivity|]. split; [exact D|]. apply runs_done. unfold plain_lazy_word_body, stop_of. rewrite cache_static by exact LX. cbn [bind].
      destruct (is_wsZ (f_buf s)); [reflexivity|]. destruct D as [D|D]; [discriminate|]. rewrite D. reflexivity.
    - apply word_step in B as (c & E1 & E2 & _ & L); [|exact A].
      assert (A' : ascii (f_buf s')) by (rewrite E1 in A; inversion A; assumption).
      destruct (IH A') as ((w & E3) & D & R). split; [exists (c :: w); rewrite E1, E3; reflexivity|]. split; [exact D|].
      eapply runs_next; [exact L|exact R].
  Qed.
  Lemma p_no_borrow_st base s s' : p_no_borrow base s = Ok s' -> f_buf s' = f_buf s /\ f_st s' = f_st s.
  Proof.
    unfold p_no_borrow. destruct (f_bor s); [|intros H; assert (s' = s) as -> by congruence; auto]. intros H. apply bind_inv in H as (t & _ & H).
    assert (s' = mkF (f_buf s) (f_st s) (f_scr s ++ t) false) as -> by congruence. auto.
  Qed.
  Lemma ws_step base s a b s' a' b' : ascii (f_buf s) -> plain_ws_body o base (s, a, b) = Ok (Next (s', a', b')) ->
    (exists w, f_buf s = w ++ f_buf s' /\ w <> [] /\ Forall ws_byte w) /\
    plain_lazy_ws_body ol (f_buf s, f_st s) = Ok (Next (f_buf s', f_st s')).
  Proof.
    intros A. unfold plain_ws_body, plain_lazy_ws_body. rewrite !cache_static by (exact OX || exact LX). cbn [bind].
    destruct (is_blank (f_buf s)) eqn:BL.
    { intros B. apply bind_inv in B as (s1 & A1 & B). assert (s1 = s') as -> by congruence. apply f_adv_st in A1.
      destruct (push_head_st s) as [E1 E2]. rewrite E1, E2 in A1. rewrite A1. split; [|reflexivity].
      destruct (f_buf s) as [|c r] eqn:FB; [discriminate|]. apply adv_ok in A1 as (-> & _).
      exists [c]. split; [reflexivity|]. split; [discriminate|]. constructor; [|constructor]. unfold is_blank, at_is in BL. cbn in BL. unfold ws_byte. lia. }
    destruct (is_break (f_buf s)) eqn:BR; [|discriminate].
    intros B. apply bind_inv in B as (s1 & N1 & B). apply p_no_borrow_st in N1 as [E1 E2].
    apply bind_inv in B as (s2 & A2 & B). assert (s2 = s') as -> by congruence. apply f_adv_line_st in A2. rewrite E1, E2 in A2. rewrite A2.
    split; [|reflexivity]. apply adv_line_ok in A2 as (-> & _). destruct (amt_bytes _ A BR) as [L F].
    exists (firstn (break_amt (f_buf s)) (f_buf s)). split; [symmetry; apply firstn_skipn|]. split; [|exact F].
    intros X. apply (f_equal (@List.length byte)) in X. rewrite firstn_length in X. cbn [List.length] in X. lia.
  Qed.
  Lemma ws_stop base s a b : is_ws (f_buf s) = false -> plain_ws_body o base (s, a, b) = Ok (Done (s, a, b)).
  Proof.
    intros W. unfold is_ws in W. unfold plain_ws_body. rewrite cache_static by exact OX. cbn [bind].
    destruct (is_blank (f_buf s)); [rewrite ?orb_true_r in W; discriminate|]. destruct (is_break (f_buf s)); [discriminate|reflexivity].
  Qed.
  Lemma ws_follow base p r : runs (plain_ws_body o base) p r -> ascii (f_buf (fst (fst p))) ->
    (exists w, f_buf (fst (fst p)) = w ++ f_buf (fst (fst r)) /\ Forall ws_byte w) /\ is_ws (f_buf (fst (fst r))) = false /\
    runs (plain_lazy_ws_body ol) (f_buf (fst (fst p)), f_st (fst (fst p))) (f_buf (fst (fst r)), f_st (fst (fst r))).
  Proof.
    induction 1 as [[[s a] b] r B|[[s a] b] [[s' a'] b'] r B H IH]; cbn [fst]; intros A.
    - unfold plain_ws_body in B. rewrite cache_static in B by exact OX. cbn [bind] in B.
      destruct (is_blank (f_buf s)) eqn:BL; [apply bind_inv in B as (x & _ & B); discriminate|].
      destruct (is_break (f_buf s)) eqn:BR; [apply bind_inv in B as (x & _ & B); apply bind_inv in B as (y & _ & B); discriminate|].
      assert (r = (s, a, b)) as -> by congruence. cbn [fst]. split; [exists []; split; [reflexivity|constructor]|].
      split; [unfold is_ws; rewrite BL, BR; reflexivity|]. apply runs_done. unfold plain_lazy_ws_body. rewrite cache_static by exact LX. cbn [bind]. rewrite BL, BR. reflexivity.
    - apply ws_step in B as ((w & E & _ & F) & L); [|exact A]. assert (A' : ascii (f_buf s')) by (rewrite E in A; eapply ascii_r, A).
      destruct (IH A') as ((w2 & E2 & F2) & W & R). cbn [fst] in E2, R. split.
      + exists (w ++ w2). rewrite <- app_assoc, <- E2. split; [exact E|]. apply Forall_app. auto.
      + split; [exact W|]. eapply runs_next; [exact L|exact R].
  Qed.
  Lemma lazy_word_measure (p p' : str * stats) : plain_lazy_word_body ol flow p = Ok (Next p') -> List.length (fst p') < List.length (fst p).
  Proof.
    destruct p as [b st]. unfold plain_lazy_word_body. rewrite cache_static by exact LX. cbn [bind fst].
    destruct b as [|c b]; [discriminate|]. destruct (is_wsZ _); [discriminate|]. destruct (plain_end _ _); [discriminate|].
    intros B. apply bind_inv in B as ([x y] & A & B). assert (p' = (x, y)) as -> by congruence. apply adv_ok in A as (-> & _). cbn. lia.
  Qed.
  Lemma lazy_ws_measure (p p' : str * stats) : plain_lazy_ws_body ol p = Ok (Next p') -> List.length (fst p') < List.length (fst p).
  Proof.
    destruct p as [b st]. unfold plain_lazy_ws_body. rewrite cache_static by exact LX. cbn [bind fst].
    destruct (is_blank b) eqn:BL.
    { intros B. apply bind_inv in B as ([x y] & A & B). assert (p' = (x, y)) as -> by congruence. apply adv_ok in A as (-> & _).
      destruct b; [discriminate|]. cbn. lia. }
    destruct (is_break b) eqn:BR; [|discriminate].
    intros B. apply bind_inv in B as ([x y] & A & B). assert (p' = (x, y)) as -> by congruence. apply adv_line_ok in A as (-> & _).
    cbn [fst]. rewrite skipn_length. unfold is_break in BR. destruct b; [discriminate|]. cbn [List.length]. lia.
  Qed.
  Lemma plain_join_st s ws lines s' ws' lines' : plain_join s ws lines = Ok (s', ws', lines') -> f_buf s' = f_buf s /\ f_st s' = f_st s.
  Proof.
    unfold plain_join. destruct lines as [|n]; [intros H; assert (s' = s) as -> by congruence; auto|].
    intros H. apply bind_inv in H as (scr & _ & H). destruct n; match type of H with Ok (?x, _, _) = _ => assert (s' = x) as -> by congruence end; auto.
  Qed.

  (** The parts of a round. *)
  Lemma body_parts base p p' : plain_body o base indent block p = Ok (Next p') -> ascii (f_buf (p_f p)) ->
    exists s2 s3 ws lines s4 ws' lines',
      is_empty (f_buf (p_f p)) || p_outdent p || is_doc_indicator (f_buf (p_f p)) (scol (f_st (p_f p))) || at_is (f_buf (p_f p)) 0 35 || plain_end flow (f_buf (p_f p)) = false /\
      runs (plain_word_body o flow) (p_f p) s2 /\ runs (plain_ws_body o base) (s2, 0, 0) (s3, ws, lines) /\
      plain_join s3 ws lines = Ok (s4, ws', lines') /\
      p' = mkP s4 (f_st s2) (block && Nat.ltb (scol (f_st s3)) indent) ws' lines'.
  Proof.
    unfold plain_body. rewrite cache_static by exact OX. cbn [bind]. destruct (_ || _) eqn:C; [discriminate|]. intros B A.
    apply bind_inv in B as (s2 & W & B). apply bind_inv in B as ([[s3 ws] lines] & V & B). apply bind_inv in B as ([[s4 ws'] lines'] & J & B).
    exists s2, s3, ws, lines, s4, ws', lines'. unfold plain_word in W. unfold plain_ws in V.
    split; [reflexivity|]. split; [eapply loop_runs, W|]. split; [eapply loop_runs, V|]. split; [exact J|]. congruence.
  Qed.
  Lemma body_done base p pf : plain_body o base indent block p = Ok (Done pf) -> pf = p /\
      is_empty (f_buf (p_f p)) || p_outdent p || is_doc_indicator (f_buf (p_f p)) (scol (f_st (p_f p))) || at_is (f_buf (p_f p)) 0 35 || plain_end flow (f_buf (p_f p)) = true.
  Proof.
    unfold plain_body. rewrite cache_static by exact OX. cbn [bind]. destruct (_ || _) eqn:C; [split; [congruence|reflexivity]|]. intros B.
    apply bind_inv in B as (s2 & W & B). apply bind_inv in B as ([[s3 ws] lines] & V & B). apply bind_inv in B as ([[s4 ws'] lines'] & J & B). discriminate.
  Qed.

  Lemma plain_lazy_runs base p pf : runs (plain_body o base indent block) p pf -> ascii (f_buf (p_f p)) ->
    plain_body o base indent block p = Ok (Done pf) \/
    exists k, k <= List.length (f_buf (p_f pf)) /\
      runs (plain_lazy_body ol indent block) (f_buf (p_f p), f_st (p_f p), p_scalar p, p_outdent p) (supd (f_st (p_f pf)) k 0 k, p_scalar pf) /\
      (skipn k (f_buf (p_f pf)) = [] \/ exists y l, f_buf (p_f p) = y ++ l :: skipn k (f_buf (p_f pf)) /\ term l) /\
      (k = 0 \/ plain_end flow (firstn k (f_buf (p_f pf))) = true) /\
      exists w, f_buf (p_f p) = w ++ f_buf (p_f pf).
  Proof.
    induction 1 as [p pf B|p p1 pf B H IH]; intros A; [left; exact B|]. right.
    apply body_parts in B as (s2 & s3 & ws & lines & s4 & ws' & lines' & C & W & V & J & ->); [|exact A].
    pose proof W as W0. apply word_follow in W0 as ((w1 & E1) & D & RW); [|exact A].
    assert (A2 : ascii (f_buf s2)) by (rewrite E1 in A; eapply ascii_r, A).
    pose proof V as V0. apply ws_follow in V0 as ((w2 & E2 & F2) & NW & RV); [|exact A2]. cbn [fst] in E2, NW, RV.
    pose proof (plain_join_st _ _ _ _ _ _ J) as [J1 J2].
    assert (LW : loop (fuel_of (f_buf (p_f p))) (plain_lazy_word_body ol flow) (f_buf (p_f p), f_st (p_f p)) = Ok (f_buf s2, f_st s2, stop_of (f_buf s2))).
    { eapply runs_fuel; [exact RW|apply lazy_word_measure|apply Nat.lt_succ_diag_r]. }
    assert (LV : loop (fuel_of (f_buf s2)) (plain_lazy_ws_body ol) (f_buf s2, f_st s2) = Ok (f_buf s3, f_st s3)).
    { eapply runs_fuel; [exact RV|apply lazy_ws_measure|apply Nat.lt_succ_diag_r]. }
    destruct (is_wsZ (f_buf s2)) eqn:WZ.
    - assert (LB : plain_lazy_body ol indent block (f_buf (p_f p), f_st (p_f p), p_scalar p, p_outdent p) =
        Ok (Next (f_buf s4, f_st s4, f_st s2, block && Nat.ltb (scol (f_st s3)) indent))).
      { unfold plain_lazy_body. rewrite cache_static by exact LX. cbn [bind]. rewrite C, LW. cbn [bind]. unfold stop_of. rewrite WZ, LV. cbn [bind]. rewrite J1, J2. reflexivity. }
      assert (A4 : ascii (f_buf s4)) by (rewrite J1; rewrite E2 in A2; eapply ascii_r, A2). cbn [p_f] in IH.
      destruct (IH A4) as [DN|(k & K1 & K2 & K3 & K4 & (w & K5))].
      + apply body_done in DN as [-> DN]. cbn [p_f p_outdent p_scalar] in *. exists 0. split; [apply Nat.le_0_l|]. rewrite (supd_zero o ol OX LX). split.
        * eapply runs_next; [exact LB|]. apply runs_done. unfold plain_lazy_body. rewrite cache_static by exact LX. cbn [bind]. rewrite DN. reflexivity.
        * cbn [skipn]. split; [|split; [auto|exists (w1 ++ w2); rewrite E1, E2, J1, app_assoc; reflexivity]].
          destruct w2 as [|a w2'].
          { cbn [app] in E2. left. rewrite J1, <- E2. rewrite wsZ_split in WZ. rewrite E2, NW in WZ. cbn [orb] in WZ. rewrite E2. destruct (f_buf s3); [reflexivity|discriminate]. }
          destruct (last_of (a :: w2')) as (y & l & EL); [discriminate|]. right. exists (w1 ++ y), l. rewrite E1, E2, J1, EL. rewrite <- !app_assoc. split; [reflexivity|].
          left. rewrite EL in F2. apply Forall_app in F2 as [_ F2]. inversion F2; assumption.
      + exists k. split; [exact K1|]. split; [eapply runs_next; [exact LB|exact K2]|]. split; [|split; [exact K4|]].
        * destruct K3 as [K3|(y & l & K3 & T)]; [left; exact K3|]. right. exists (w1 ++ w2 ++ y), l. split; [|exact T]. rewrite E1, E2, <- J1, K3, <- !app_assoc. reflexivity.
        * exists (w1 ++ w2 ++ w). rewrite E1, E2, <- J1, K5, <- !app_assoc. reflexivity.
    - destruct D as [D|D]; [discriminate|]. rewrite wsZ_split in WZ. apply orb_false_iff in WZ as [WS WE].
      pose proof (runs_fun _ _ _ _ V (runs_done _ _ _ (ws_stop base s2 0 0 WS))) as EV.
      assert (s3 = s2) as -> by congruence. assert (lines = 0) as -> by congruence. assert (ws = 0) as -> by congruence. clear EV.
      cbn [plain_join] in J. assert (s4 = s2) as -> by congruence.
      assert (DN : plain_body o base indent block (mkP s2 (f_st s2) (block && Nat.ltb (scol (f_st s2)) indent) ws' lines') = Ok (Done (mkP s2 (f_st s2) (block && Nat.ltb (scol (f_st s2)) indent) ws' lines'))).
      { unfold plain_body. cbn [p_f]. rewrite cache_static by exact OX. cbn [bind]. rewrite D, orb_true_r. reflexivity. }
      pose proof (runs_fun _ _ _ _ H (runs_done _ _ _ DN)) as ->. cbn [p_f p_scalar].
      exists (if is_ws_at (f_buf s2) 1 then 2 else 1).
      destruct (f_buf s2) as [|c b] eqn:FB; [discriminate|].
      split; [destruct (is_ws_at (c :: b) 1) eqn:X; [destruct b; [discriminate|apply le_n_S, le_n_S, Nat.le_0_l]|apply le_n_S, Nat.le_0_l]|]. split.
      + apply runs_done. unfold plain_lazy_body. rewrite cache_static by exact LX. cbn [bind]. rewrite C, LW. cbn [bind]. unfold stop_of.
        rewrite wsZ_split, WS, WE. cbn [orb]. reflexivity.
      + inversion A2 as [|? ? C1 A3]; subst. destruct (is_ws_at (c :: b) 1) eqn:X.
        * destruct b as [|d b]; [discriminate|]. inversion A3; subst. cbn [skipn firstn]. unfold is_ws_at in X. cbn [skipn] in X. apply ws_head in X; [|assumption].
          split; [right; exists (w1 ++ [c]), d; split; [rewrite E1, <- app_assoc; reflexivity|left; exact X]|]. split; [right|exists w1; exact E1].
          unfold plain_end, is_flow_ind_at, at_is, is_wsZ_at in *. cbn [nth_error skipn] in *. rewrite wsZ_split. rewrite wsZ_split in D.
          rewrite (proj2 (ws_head d [] ltac:(assumption)) X). rewrite (proj2 (ws_head d b ltac:(assumption)) X) in D. exact D.
        * cbn [skipn firstn]. unfold plain_end, is_flow_ind_at, at_is, is_wsZ_at, is_ws_at in *. cbn [nth_error skipn] in *. rewrite wsZ_split in D. rewrite X in D. cbn [orb] in D.
          split; [|split; [right|exists w1; exact E1]].
          { destruct b as [|d b]; [left; reflexivity|]. cbn [is_empty] in D. rewrite andb_false_r in D. cbn [orb] in D. right. exists w1, c. split; [exact E1|].
            right. destruct block; [discriminate|]. cbn [negb andb] in D. auto. }
          { rewrite wsZ_split. cbn [is_empty]. rewrite orb_true_r, andb_true_r. destruct (c =? 58)%N; [reflexivity|exact D]. }
  Qed.

  (** ** The eager scan of the deferred text *)
  Section Narrow.
    Variables (pre rest : str).
    Hypothesis AB : ascii (pre ++ rest).
    Hypothesis TL : rest = [] \/ exists y l, pre = y ++ [l] /\ term l.
    Definition ok (x : str) : Prop := exists w, pre = w ++ x.
    Definition live (x : str) : Prop := x <> [] \/ rest = [].
    Notation wide := (wide rest).

    Lemma ok_last x : ok x -> x <> [] -> rest = [] \/ exists y l, x = y ++ [l] /\ term l.
    Proof.
      intros (w & E) N. destruct TL as [T|(y & l & E2 & T)]; [auto|]. right. destruct (last_of x N) as (y' & l' & ->).
      exists y', l'. split; [reflexivity|]. rewrite E2, app_assoc in E. apply app_inj_tail in E as [_ ->]. exact T.
    Qed.
    Lemma ok_ascii x : ok x -> ascii x.
    Proof. intros (w & E). apply (ascii_r w). rewrite <- E. eapply ascii_l, AB. Qed.
    Lemma ok_tail w x : ok (w ++ x) -> ok x.
    Proof. intros (v & E). exists (v ++ w). rewrite E, app_assoc. reflexivity. Qed.
    Lemma term_not l : term l -> l <> 58%N /\ l <> 45%N /\ l <> 46%N.
    Proof. intros [[T|[T|[T|T]]]|[_ T]]; try (subst l; repeat split; discriminate). unfold is_flow_ind_byte in T. lia. Qed.
    Lemma end_narrow x : ok x -> live x -> plain_end flow (x ++ rest) = plain_end flow x.
    Proof.
      intros K [N|N]; [|rewrite N, app_nil_r; reflexivity]. destruct (ok_last x K N) as [R|(y & l & E & T)]; [rewrite R, app_nil_r; reflexivity|].
      destruct y as [|a y].
      - subst x. unfold plain_end, at_is, is_flow_ind_at. cbn [app nth_error]. destruct (term_not l T) as (X & _). replace (l =? 58)%N with false by (symmetry; apply N.eqb_neq, X). reflexivity.
      - apply CutFacts.plain_end_app; [split; apply valid_ascii; [apply ok_ascii, K|eapply ascii_r, AB]|]. rewrite E. cbn [app List.length]. rewrite app_length. cbn. lia.
    Qed.
    Lemma pdoc_narrow x c : ok x -> live x -> is_doc_indicator (x ++ rest) c = is_doc_indicator x c.
    Proof.
      intros K [N|N]; [|rewrite N, app_nil_r; reflexivity]. destruct (ok_last x K N) as [R|(y & l & E & T)]; [rewrite R, app_nil_r; reflexivity|].
      destruct (Nat.le_gt_cases 4 (List.length x)) as [L|L].
      - apply CutFacts.doc_app; [split; apply valid_ascii; [apply ok_ascii, K|eapply ascii_r, AB]|exact L].
      - destruct (term_not l T) as (_ & X1 & X2). apply N.eqb_neq in X1, X2. subst x. unfold is_doc_indicator. change (bytes "---") with [45;45;45]%N. change (bytes "...") with [46;46;46]%N.
        assert (F : forall z c0, (l =? c0)%N = false -> starts_with ((y ++ [l]) ++ z) [c0; c0; c0] = false).
        { intros z c0 H. destruct y as [|a [|b [|d y]]]; cbn [app starts_with]; try (rewrite H, ?andb_false_r; reflexivity).
          cbn [app List.length] in L. rewrite app_length in L. cbn in L. lia. }
        rewrite !(F rest _ X1), !(F rest _ X2). rewrite <- (app_nil_r (y ++ [l])). rewrite !(F [] _ X1), !(F [] _ X2). rewrite !andb_false_r. reflexivity.
    Qed.
    Lemma live_skip c x : c :: x = [] \/ True -> live (c :: x).
    Proof. intros _. left. discriminate. Qed.

    Lemma adv_narrow' s n w : ascii (f_buf s) -> n <= List.length (f_buf s) -> f_adv (wide s) n = Ok w ->
      exists s', w = wide s' /\ f_adv s n = Ok s' /\ f_buf s' = skipn n (f_buf s).
    Proof.
      intros A L H. unfold f_adv in *. apply bind_inv in H as ([b st] & A1 & H). apply adv_ok in A1 as (E1 & E2 & _). cbn [Narrow.wide f_buf f_st f_scr f_bor] in *.
      rewrite adv_ascii by assumption. cbn [bind]. eexists. split; [|split; [reflexivity|reflexivity]].
      match type of H with Ok ?x = _ => assert (w = x) as -> by congruence end. unfold Narrow.wide. cbn [f_buf f_st f_scr f_bor]. rewrite E1, E2, skipn_cut by exact L. reflexivity.
    Qed.
    Lemma adv_line_narrow' s w : ascii (f_buf s) -> f_buf s <> [] -> break_amt (f_buf s ++ rest) <= List.length (f_buf s) -> f_adv_line (wide s) = Ok w ->
      exists s', w = wide s' /\ f_adv_line s = Ok s' /\ f_buf s' = skipn (break_amt (f_buf s)) (f_buf s).
    Proof.
      intros A NS L H. unfold f_adv_line in *. apply bind_inv in H as ([b st] & A1 & H). apply adv_line_ok in A1 as (E1 & E2 & _). cbn [Narrow.wide f_buf f_st f_scr f_bor] in *.
      rewrite adv_line_ascii by assumption. cbn [bind]. eexists. split; [|split; [reflexivity|reflexivity]].
      match type of H with Ok ?x = _ => assert (w = x) as -> by congruence end. unfold Narrow.wide. cbn [f_buf f_st f_scr f_bor]. rewrite (amt_cut _ _ A NS L), E1, E2, skipn_cut by exact L. reflexivity.
    Qed.
    Lemma p_no_borrow_narrow s w : p_no_borrow (pre ++ rest) (wide s) = Ok w -> exists s', w = wide s' /\ p_no_borrow pre s = Ok s' /\ f_buf s' = f_buf s.
    Proof.
      unfold p_no_borrow. cbn [Narrow.wide f_bor f_buf]. destruct (f_bor s) eqn:FB.
      - intros H. apply bind_inv in H as (t & S & H). rewrite consumed_cut in S.
        set (k := consumed pre (f_buf s)) in *. assert (K : k <= List.length pre) by (unfold k, consumed; lia).
        rewrite slice_ascii in S; [|exact AB|lia|rewrite app_length; lia].
        rewrite slice_ascii; [|eapply ascii_l, AB|lia|exact K]. cbn [bind skipn] in *.
        assert (EQ : firstn (k - 0) (pre ++ rest) = firstn (k - 0) pre).
        { rewrite firstn_app. replace (k - 0 - List.length pre) with 0 by lia. cbn [firstn]. apply app_nil_r. }
        rewrite EQ in S. eexists. split; [|split; [reflexivity|reflexivity]].
        match type of H with Ok ?x = _ => assert (w = x) as -> by congruence end. assert (t = firstn (k - 0) pre) as -> by congruence. reflexivity.
      - intros H. exists s. split; [congruence|auto].
    Qed.
    Lemma push_head_narrow' s : live (f_buf s) -> f_push_head (wide s) = wide (f_push_head s).
    Proof. intros [N|N]; [apply push_head_narrow, N|]. destruct s as [b st scr bor]. unfold f_push_head, f_push, Narrow.wide. cbn [f_bor f_buf f_st f_scr]. rewrite N, app_nil_r. destruct bor; cbn [f_bor f_buf f_st f_scr]; rewrite app_nil_r; reflexivity. Qed.

    Lemma wsZ_narrow x : ok x -> live x -> is_wsZ (x ++ rest) = is_wsZ x.
    Proof. intros K [N|N]; [apply wsZ_cut; [apply ok_ascii, K|exact N]|rewrite N, app_nil_r; reflexivity]. Qed.

    Lemma word_narrow' w r : runs (plain_word_body o flow) w r -> forall s, w = wide s -> ok (f_buf s) -> live (f_buf s) ->
      exists rs, r = wide rs /\ runs (plain_word_body oe flow) s rs /\ ok (f_buf rs) /\ live (f_buf rs).
    Proof.
      induction 1 as [w r B|w w' r B H IH]; intros s -> K LV.
      - unfold plain_word_body in B. rewrite cache_static in B by exact OX. cbn [bind] in B. change (f_buf (wide s)) with (f_buf s ++ rest) in B.
        rewrite wsZ_narrow, end_narrow in B by assumption. exists s. split.
        + destruct (is_wsZ (f_buf s)); [congruence|]. destruct (plain_end flow (f_buf s)); [congruence|]. apply bind_inv in B as (x & _ & B). discriminate.
        + split; [|auto]. apply runs_done. unfold plain_word_body. rewrite cache_static by exact EX. cbn [bind].
          destruct (is_wsZ (f_buf s)); [congruence|]. destruct (plain_end flow (f_buf s)); [congruence|]. apply bind_inv in B as (x & _ & B). discriminate.
      - pose proof (ok_ascii _ K) as A. pose proof B as B0. apply word_step in B0 as (c & E1 & _ & NT & _); [|apply ascii_app; [exact A|eapply ascii_r, AB]].
        cbn [Narrow.wide f_buf] in E1.
        unfold plain_word_body in B. rewrite cache_static in B by exact OX. cbn [bind] in B. change (f_buf (wide s)) with (f_buf s ++ rest) in B.
        rewrite wsZ_narrow, end_narrow in B by assumption. destruct (is_wsZ (f_buf s)) eqn:WZ; [discriminate|]. destruct (plain_end flow (f_buf s)) eqn:PE; [discriminate|].
        apply bind_inv in B as (x & B & E). assert (x = w') as -> by congruence. rewrite push_head_narrow' in B by exact LV.
        destruct (f_buf s) as [|a b] eqn:FB; [rewrite wsZ_split, orb_true_r in WZ; discriminate|].
        destruct (push_head_st s) as [P1 P2]. apply adv_narrow' in B as (s1 & -> & B & F1); [|rewrite P1, FB; exact A|rewrite P1, FB; apply le_n_S, Nat.le_0_l].
        rewrite P1, FB in F1. cbn [skipn] in F1. cbn [app] in E1. assert (a = c) as -> by congruence.
        assert (K1 : ok (f_buf s1)) by (rewrite F1; apply (ok_tail [c]); exact K).
        assert (L1 : live (f_buf s1)).
        { rewrite F1. destruct b; [|left; discriminate]. destruct (ok_last [c] K) as [R|(y & l & E2 & T)]; [discriminate|right; exact R|].
          exfalso. apply NT. destruct y as [|? [|]]; cbn [app] in E2; [congruence|discriminate|discriminate]. }
        destruct (IH s1 eq_refl K1 L1) as (rs & E3 & R & K2 & L2). exists rs. split; [exact E3|]. split; [|auto].
        eapply runs_next; [|exact R]. unfold plain_word_body. rewrite cache_static by exact EX. cbn [bind]. rewrite FB, WZ, PE, B. reflexivity.
    Qed.
    Lemma ws_narrow' p r : runs (plain_ws_body o (pre ++ rest)) p r -> forall s a b z, p = (wide s, a, b) -> ok (f_buf s) -> f_buf (fst (fst r)) = z ++ rest ->
      exists rs c d, r = (wide rs, c, d) /\ runs (plain_ws_body oe pre) (s, a, b) (rs, c, d) /\ f_buf rs = z.
    Proof.
      induction 1 as [p r B|p [[w' a'] b'] r B H IH]; intros s a b z -> K EZ.
      - pose proof (ok_ascii _ K) as A.
        assert (r = (wide s, a, b) /\ is_ws (f_buf s ++ rest) = false) as [-> W].
        { unfold plain_ws_body in B. rewrite cache_static in B by exact OX. cbn [bind] in B. change (f_buf (wide s)) with (f_buf s ++ rest) in B.
          unfold is_ws. destruct (is_blank (f_buf s ++ rest)); [apply bind_inv in B as (x & _ & B); discriminate|].
          destruct (is_break (f_buf s ++ rest)); [apply bind_inv in B as (x & _ & B); apply bind_inv in B as (y & _ & B); discriminate|].
          split; [congruence|reflexivity]. }
        cbn [fst Narrow.wide f_buf] in EZ. apply app_inv_tail in EZ. subst z.
        exists s, a, b. split; [reflexivity|]. split; [|reflexivity]. apply runs_done.
        assert (W' : is_ws (f_buf s) = false) by (destruct (f_buf s) eqn:FB; [reflexivity|rewrite <- FB in *; rewrite ws_cut in W by (assumption || rewrite FB; discriminate); exact W]).
        unfold is_ws in W'. unfold plain_ws_body. rewrite cache_static by exact EX. cbn [bind].
        destruct (is_blank (f_buf s)); [rewrite ?orb_true_r in W'; discriminate|]. destruct (is_break (f_buf s)); [discriminate|reflexivity].
      - pose proof (ok_ascii _ K) as A. pose proof B as B0. assert (AW : ascii (f_buf (wide s))) by (apply ascii_app; [exact A|eapply ascii_r, AB]).
        apply ws_step in B0 as ((v & E1 & NV & _) & _); [|exact AW].
        assert (A' : ascii (f_buf w')) by (rewrite E1 in AW; eapply ascii_r, AW).
        destruct (ws_follow _ _ _ H A') as ((v2 & E2 & _) & _). cbn [fst] in E2. rewrite EZ in E2. rewrite E2 in E1. cbn [Narrow.wide f_buf] in E1.
        rewrite !app_assoc in E1. apply app_inv_tail in E1.
        assert (NX : f_buf s <> []) by (rewrite E1; destruct v; [congruence|discriminate]).
        unfold plain_ws_body in B. rewrite cache_static in B by exact OX. cbn [bind] in B. change (f_buf (wide s)) with (f_buf s ++ rest) in B.
        rewrite blank_cut, break_cut in B by assumption.
        destruct (is_blank (f_buf s)) eqn:BL.
        + apply bind_inv in B as (x & B & E). assert (x = w') as -> by congruence. assert (a' = S a) as -> by congruence. assert (b' = b) as -> by congruence.
          rewrite push_head_narrow' in B by (left; exact NX). destruct (push_head_st s) as [P1 P2].
          apply adv_narrow' in B as (s1 & -> & B & F1); [|rewrite P1; exact A|rewrite P1; destruct (f_buf s); [congruence|apply le_n_S, Nat.le_0_l]].
          rewrite P1 in F1. assert (K1 : ok (f_buf s1)) by (rewrite F1; apply (ok_tail (firstn 1 (f_buf s))); rewrite firstn_skipn; exact K).
          destruct (IH s1 (S a) b z eq_refl K1 EZ) as (rs & c & d & E3 & R & Z). exists rs, c, d. split; [exact E3|]. split; [|exact Z].
          eapply runs_next; [|exact R]. unfold plain_ws_body. rewrite cache_static by exact EX. cbn [bind]. rewrite BL, B. reflexivity.
        + destruct (is_break (f_buf s)) eqn:BR; [|discriminate].
          apply bind_inv in B as (w1 & N1 & B). apply p_no_borrow_narrow in N1 as (s1 & -> & N1 & F1).
          apply bind_inv in B as (x & B & E). assert (x = w') as -> by congruence. assert (a' = a) as -> by congruence. assert (b' = S b) as -> by congruence.
          assert (LA : break_amt (f_buf s ++ rest) <= List.length (f_buf s)).
          { pose proof (f_adv_line_st _ _ B) as B1. apply adv_line_ok in B1 as (E4 & _). cbn [Narrow.wide f_buf] in E4. rewrite F1 in E4.
            pose proof (break_amt_le (f_buf s ++ rest)) as X. apply (f_equal (@List.length byte)) in E4. rewrite skipn_length, E2, app_length in E4. rewrite !app_length in *. clear - E4 X. unfold byte in *. lia. }
          apply adv_line_narrow' in B as (s2 & -> & B & F2); [|rewrite F1; assumption..].
          rewrite F1 in F2. assert (K1 : ok (f_buf s2)) by (rewrite F2; apply (ok_tail (firstn (break_amt (f_buf s)) (f_buf s))); rewrite firstn_skipn; exact K).
          destruct (IH s2 a (S b) z eq_refl K1 EZ) as (rs & c & d & E3 & R & Z). exists rs, c, d. split; [exact E3|]. split; [|exact Z].
          eapply runs_next; [|exact R]. unfold plain_ws_body. rewrite cache_static by exact EX. cbn [bind]. rewrite BL, BR, N1. cbn [bind]. rewrite B. reflexivity.
    Qed.
    Lemma plain_join_narrow s ws lines w ws' lines' : plain_join (wide s) ws lines = Ok (w, ws', lines') ->
      exists s', w = wide s' /\ plain_join s ws lines = Ok (s', ws', lines') /\ f_buf s' = f_buf s.
    Proof.
      unfold plain_join. destruct lines as [|n]; [intros H; exists s; assert (w = wide s) as -> by congruence; split; [reflexivity|split; [congruence|reflexivity]]|].
      cbn [Narrow.wide f_scr]. intros H. apply bind_inv in H as (scr & -> & H). cbn [bind].
      destruct n; match type of H with Ok (?x, ?y, ?z) = _ => assert (w = x) as -> by congruence; assert (ws' = y) as -> by congruence; assert (lines' = z) as -> by congruence end;
        (eexists; split; [|split; [reflexivity|reflexivity]]; reflexivity).
    Qed.
    Definition pwide (p : pstate) : pstate := mkP (wide (p_f p)) (p_scalar p) (p_outdent p) (p_ws p) (p_lines p).

    Lemma word_measure' fl : extendable fl = false -> forall p p' : fstate, plain_word_body fl flow p = Ok (Next p') -> List.length (f_buf p') < List.length (f_buf p).
    Proof.
      intros FX p p'. unfold plain_word_body. rewrite cache_static by exact FX. cbn [bind].
      destruct (is_wsZ (f_buf p)) eqn:WZ; [discriminate|]. destruct (plain_end _ _); [discriminate|].
      intros B. apply bind_inv in B as (x & B & E). assert (x = p') as -> by congruence. apply f_adv_st, adv_ok in B as (-> & _). destruct (push_head_st p) as [-> _].
      destruct (f_buf p); [discriminate|]. cbn [skipn List.length]. apply Nat.lt_succ_diag_r.
    Qed.
    Lemma ws_measure' fl base : extendable fl = false -> forall p p' : fstate * nat * nat, plain_ws_body fl base p = Ok (Next p') -> List.length (f_buf (fst (fst p'))) < List.length (f_buf (fst (fst p))).
    Proof.
      intros FX [[s a] b] p'. unfold plain_ws_body. rewrite cache_static by exact FX. cbn [bind fst].
      destruct (is_blank (f_buf s)) eqn:BL.
      { intros B. apply bind_inv in B as (x & B & E). assert (p' = (x, S a, b)) as -> by congruence. apply f_adv_st, adv_ok in B as (E1 & _). cbn [fst]. rewrite E1. destruct (push_head_st s) as [-> _].
        destruct (f_buf s); [discriminate|]. cbn [skipn List.length]. apply Nat.lt_succ_diag_r. }
      destruct (is_break (f_buf s)) eqn:BR; [|discriminate].
      intros B. apply bind_inv in B as (s1 & N1 & B). apply p_no_borrow_st in N1 as [E1 E2]. apply bind_inv in B as (x & B & E). assert (p' = (x, a, S b)) as -> by congruence.
      apply f_adv_line_st, adv_line_ok in B as (E3 & _). cbn [fst]. rewrite E3, E1, skipn_length. unfold is_break in BR. destruct (f_buf s); [discriminate|]. cbn [List.length]. lia.
    Qed.

    Lemma body_narrow' p pf : runs (plain_body o (pre ++ rest) indent block) p pf -> forall pn z, p = pwide pn -> ok (f_buf (p_f pn)) ->
      f_buf (p_f pf) = z ++ rest -> (z = [] \/ plain_end flow z = true) ->
      exists pnf, pf = pwide pnf /\ runs (plain_body oe pre indent block) pn pnf.
    Proof.
      induction 1 as [p pf B|p p1 pf B H IH]; intros pn z -> K EZ HZ.
      - apply body_done in B as [-> _]. exists pn. split; [reflexivity|]. apply runs_done. cbn [pwide p_f Narrow.wide f_buf] in EZ. apply app_inv_tail in EZ.
        unfold plain_body. rewrite cache_static by exact EX. cbn [bind]. rewrite EZ. destruct HZ as [-> | ->]; [reflexivity|]. rewrite orb_true_r. reflexivity.
      - pose proof (ok_ascii _ K) as A. assert (AW : ascii (f_buf (wide (p_f pn)))) by (apply ascii_app; [exact A|eapply ascii_r, AB]).
        apply body_parts in B as (w2 & w3 & ws & lines & w4 & ws' & lines' & C & W & V & J & ->); [|exact AW].
        cbn [pwide p_f p_outdent] in C, W.
        pose proof W as W0. apply word_follow in W0 as ((v1 & E1) & D & _); [|exact AW].
        assert (A2 : ascii (f_buf w2)) by (rewrite E1 in AW; eapply ascii_r, AW).
        pose proof V as V0. apply ws_follow in V0 as ((v2 & E2 & _) & NW & _); [|exact A2]. cbn [fst] in E2, NW.
        assert (A3 : ascii (f_buf w3)) by (rewrite E2 in A2; eapply ascii_r, A2).
        pose proof (plain_join_st _ _ _ _ _ _ J) as [J1 J2].
        assert (E3 : exists v3, f_buf w3 = v3 ++ z ++ rest).
        { destruct (plain_lazy_runs _ _ _ H) as [DN|(k & _ & _ & _ & _ & (v & E3))]; [cbn [p_f]; rewrite J1; exact A3| |].
          - apply body_done in DN as [-> _]. exists []. cbn [p_f] in EZ. rewrite <- J1. exact EZ.
          - cbn [p_f] in E3. rewrite J1, EZ in E3. eauto. }
        destruct E3 as (v3 & E3).
        assert (LV : live (f_buf (p_f pn))).
        { left. intros X. cbn [Narrow.wide f_buf] in E1, C. rewrite X in *. cbn [app] in *.
          assert (L : v1 = [] /\ v2 = []).
          { rewrite E2, E3 in E1. apply (f_equal (@List.length byte)) in E1. rewrite !app_length in E1. clear - E1. split; [destruct v1|destruct v2]; try reflexivity; cbn [List.length] in E1; unfold byte in *; lia. }
          destruct L as [-> ->]. cbn [app] in E1, E2. rewrite <- E1 in D. rewrite <- E2, <- E1 in NW.
          destruct D as [D|D]; [rewrite wsZ_split, NW in D; cbn [orb] in D|]; rewrite D in C; rewrite ?orb_true_r in C; discriminate. }
        destruct (word_narrow' _ _ W _ eq_refl K LV) as (s2 & -> & WN & K2 & L2).
        rewrite app_assoc in E3. destruct (ws_narrow' _ _ V s2 0 0 (v3 ++ z) eq_refl K2 E3) as (s3 & c & d & EQ & VN & Z3).
        assert (w3 = wide s3) as -> by congruence. assert (ws = c) as -> by congruence. assert (lines = d) as -> by congruence. clear EQ.
        apply plain_join_narrow in J as (s4 & -> & JN & Z4).
        assert (K3 : ok (f_buf s3)).
        { cbn [Narrow.wide f_buf] in E2. rewrite app_assoc in E2. apply app_inv_tail in E2. rewrite E2 in K2. eapply ok_tail, K2. }
        destruct (IH (mkP s4 (f_st s2) (block && Nat.ltb (scol (f_st s3)) indent) ws' lines') z eq_refl) as (pnf & EF & RN); [cbn [p_f]; rewrite Z4; exact K3|exact EZ|exact HZ|].
        exists pnf. split; [exact EF|]. eapply runs_next; [|exact RN].
        unfold plain_body. rewrite cache_static by exact EX. cbn [bind].
        change (f_buf (wide (p_f pn))) with (f_buf (p_f pn) ++ rest) in C. change (f_st (wide (p_f pn))) with (f_st (p_f pn)) in C.
        rewrite pdoc_narrow, end_narrow in C by assumption.
        assert (C' : is_empty (f_buf (p_f pn)) || p_outdent pn || is_doc_indicator (f_buf (p_f pn)) (scol (f_st (p_f pn))) || at_is (f_buf (p_f pn)) 0 35 || plain_end flow (f_buf (p_f pn)) = false).
        { destruct LV as [N|N].
          - rewrite at_cut in C by (destruct (f_buf (p_f pn)); [congruence|apply le_n_S, Nat.le_0_l]). destruct (f_buf (p_f pn)); [congruence|exact C].
          - rewrite N, app_nil_r in C. exact C. }
        rewrite C'. unfold plain_word. rewrite (runs_fuel _ _ _ _ WN (word_measure' oe EX)) by apply Nat.lt_succ_diag_r. cbn [bind]. unfold plain_ws.
        rewrite (runs_fuel _ _ _ _ VN (ws_measure' oe pre EX)) by apply Nat.lt_succ_diag_r. cbn [bind]. rewrite JN. reflexivity.
    Qed.
  End Narrow.

  (** ** Together *)
  Lemma plain_defer base st t n st' : ascii base -> plain_first base st block ->
    scan_plain_scalar_eager o base st indent block = Ok (t, n, st') ->
    exists m, scan_plain_scalar_lazy ol base st indent block = Ok (DPlain (no_extend ol) (firstn m base) st indent block, n, st') /\
      scan_plain_scalar_eager oe (firstn m base) st indent block = Ok (t, n, st').
  Proof.
    intros A PF E. pose proof (scan_plain_lazy_leaf ol base st indent block PF) as LL.
    unfold scan_plain_scalar_eager in E. rewrite cache_static in E by exact OX. cbn [bind] in E.
    destruct (flow && _ && _) eqn:IV; [discriminate|]. apply bind_inv in E as (p & L & E). apply loop_runs in L.
    destruct (plain_lazy_runs _ _ _ L A) as [DN|(k & K1 & K2 & K3 & K4 & (w & K5))].
    { exfalso. apply body_done in DN as [_ DN]. cbn [p_f p_outdent f_buf f_st] in DN. destruct PF as (P1 & P2 & P3 & P4). rewrite P2, P3, P4 in DN.
      rewrite wsZ_split in P1. apply orb_false_iff in P1 as [_ P1]. rewrite P1 in DN. discriminate. }
    cbn [p_f p_scalar p_outdent f_buf f_st] in *.
    set (rest := skipn k (f_buf (p_f p))) in *. set (z := firstn k (f_buf (p_f p))) in *.
    assert (EB : base = (w ++ z) ++ rest) by (rewrite K5, <- app_assoc; unfold z, rest; rewrite firstn_skipn; reflexivity).
    set (pre := w ++ z) in *.
    assert (AB : ascii (pre ++ rest)) by (rewrite <- EB; exact A).
    assert (TL : rest = [] \/ exists y l, pre = y ++ [l] /\ term l).
    { destruct K3 as [K3|(y & l & K3 & T)]; [auto|]. right. exists y, l. split; [|exact T]. rewrite EB in K3. change (y ++ l :: rest) with (y ++ [l] ++ rest) in K3. rewrite app_assoc in K3. eapply app_inv_tail, K3. }
    assert (INV : plain_inv base st p).
    { apply (runs_ind_inv _ (plain_inv base st) (plain_inv base st)) with (3 := L).
      - intros a b I B. pose proof (plain_body_leaf o base st indent block a PF I) as X. rewrite B in X. apply X.
      - intros a b I B. apply body_done in B as [-> _]. exact I.
      - split; [|left; reflexivity]. split; [constructor|]. unfold tight. cbn. split; [reflexivity|lia]. }
    destruct INV as [[RR _] _]. cbn [p_f] in RR. apply reads_len in RR as (R1 & R2 & _).
    assert (LP : sread (supd (f_st (p_f p)) k 0 k) - sread st = List.length pre).
    { unfold supd. cbn [sread]. unfold pre, z. rewrite app_length, firstn_length. assert (List.length base = List.length w + List.length (f_buf (p_f p))) by (rewrite K5, app_length; reflexivity). clear - R1 R2 K1 H. unfold byte in *. lia. }
    exists (List.length pre).
    assert (FP : firstn (List.length pre) base = pre) by (rewrite EB, firstn_app, firstn_all, Nat.sub_diag; apply app_nil_r).
    rewrite FP.
    unfold scan_plain_scalar_lazy in LL |- *.
    pose proof (runs_loop _ _ _ K2 _ (leaf_fuel _ _ _ _ _ LL)) as LO. rewrite LO in LL |- *. cbn [bind] in LL |- *. clear LO. rewrite LP in LL |- *.
    assert (LPB : List.length pre <= List.length base) by (rewrite EB, app_length; apply Nat.le_add_r).
    rewrite slice_ascii in LL |- * by (assumption || apply Nat.le_0_l). cbn [bind leaf skipn] in LL |- *. rewrite Nat.sub_0_r, FP in LL |- *.
    destruct LL as (AM & _ & (m & M1 & M2)).
    assert (MP : sread (p_scalar p) - sread st <= List.length pre).
    { assert (X : pre = firstn m base) by congruence. rewrite X, firstn_length. clear - M1. unfold byte in *. lia. }
    apply bind_inv in E as (scr & SC & E). apply bind_inv in E as (txt & T & E).
    assert (st' = p_scalar p) as -> by congruence. assert (n = sread (p_scalar p) - sread st) as -> by congruence. assert (t = TScalar txt Plain) as -> by congruence. clear E.
    split; [reflexivity|].
    (* evaluation *)
    assert (EZ : f_buf (p_f p) = z ++ rest) by (symmetry; apply firstn_skipn).
    assert (HZ : z = [] \/ plain_end flow z = true) by (destruct K4 as [->|K4]; [left; reflexivity|right; exact K4]).
    clearbody z rest.
    assert (OK0 : ok pre pre) by (exists []; reflexivity).
    rewrite EB in L.
    destruct (body_narrow' pre rest AB TL _ _ L (mkP (mkF pre st [] true) st false 0 0) z eq_refl OK0 EZ HZ) as (pnf & -> & RN).
    assert (PFN : plain_first pre st block).
    { destruct PF as (P1 & P2 & P3 & P4). rewrite EB in P1, P2, P3, P4.
      assert (LVP : live rest pre).
      { left. intros X. rewrite X in *. cbn [app List.length] in *. clear - AM MP. unfold byte in *. lia. }
      assert (NP : pre <> []) by (destruct LVP as [X|X]; [exact X|intros Y; rewrite X, Y in P1; discriminate]).
      rewrite (wsZ_narrow pre rest AB) in P1 by assumption. rewrite (pdoc_narrow pre rest AB TL) in P2 by assumption. rewrite (end_narrow pre rest AB TL) in P4 by assumption.
      rewrite at_cut in P3 by (destruct pre; [congruence|apply le_n_S, Nat.le_0_l]). split; [exact P1|]. split; [exact P2|]. split; assumption. }
    pose proof (scan_plain_eager_leaf oe pre st indent block PFN) as LE.
    unfold scan_plain_scalar_eager in LE |- *. rewrite cache_static in LE |- * by exact EX. cbn [bind] in LE |- *.
    assert (IV' : flow && (at_is pre 0 58 || at_is pre 0 63 || at_is pre 0 45) && is_flow_ind_at pre 1 = false).
    { destruct pre as [|a [|b pr]] eqn:EP.
      - rewrite andb_false_r. reflexivity.
      - unfold is_flow_ind_at. cbn [nth_error]. apply andb_false_r.
      - rewrite EB in IV. exact IV. }
    rewrite IV' in LE |- *.
    rewrite (runs_loop _ _ _ RN _ (leaf_fuel _ _ _ _ _ LE)). cbn [bind]. cbn [pwide p_f p_scalar p_ws p_lines wide f_bor f_scr] in SC, T |- *.
    cbn [pwide p_scalar] in MP. rewrite SC. cbn [bind].
    assert (TX : (if f_bor (p_f pnf) then let* x := slice pre 0 (sread (p_scalar pnf) - sread st) in Ok (Borrowed x) else let* x := utf8_unwrap scr in Ok (Owned x) : sres cow) = Ok txt).
    { destruct (f_bor (p_f pnf)); [|exact T]. rewrite slice_ascii in T |- *; try assumption; try apply Nat.le_0_l.
      - cbn [bind skipn] in *. rewrite <- T. do 2 f_equal. rewrite EB, firstn_app.
        match goal with |- _ = _ ++ firstn ?j _ => replace j with 0 by (clear - MP; unfold byte in *; lia) end. symmetry. apply app_nil_r.
      - eapply Nat.le_trans; [exact MP|exact LPB].
      - eapply ascii_l, AB. }
    rewrite TX. reflexivity.
  Qed.
End Plain.
