(** Block scalars of ASCII texts are read. *)
From Verif Require Export BlockTokens.
From Verif Require Import SpecContent Utf8Facts History ContentFacts NameFacts BlockFacts.
From Coq Require Import Lia ZifyBool ZifyN ZifyNat.
Open Scope nat_scope.

Lemma ascii_skipn s n : all_ascii s -> all_ascii (skipn n s).
Proof. unfold all_ascii. intros A. rewrite <- (firstn_skipn n s) in A. apply Forall_app in A. apply A. Qed.
Lemma ascii_bound s n : all_ascii s -> n <= List.length s -> is_boundary s n = true.
Proof.
  intros A L. unfold is_boundary. destruct n; [reflexivity|]. destruct (nth_error s (S n)) as [c|] eqn:E.
  - apply nth_error_In in E. unfold all_ascii in A. rewrite Forall_forall in A. specialize (A c E). unfold is_cont, rng. lia.
  - apply nth_error_None in E. lia.
Qed.
Lemma adv_ascii b s n : all_ascii b -> n <= List.length b -> adv b s n = Ok (skipn n b, supd s n 0 n).
Proof. intros A L. unfold adv, skip. rewrite (ascii_bound b n A L). reflexivity. Qed.
Lemma adv_line_ascii b s : all_ascii b -> adv_line b s = Ok (skipn (break_len b) b, supd s (break_len b) 1 0).
Proof.
  intros A. unfold adv_line, skip. rewrite <- break_len_amt. rewrite (ascii_bound b _ A); [reflexivity|].
  rewrite break_len_amt. destruct b as [|c b]; [reflexivity|]. pose proof (Forall_inv A) as C. cbn beta in C. unfold break_amt.
  destruct b as [|d b]; cbn; repeat match goal with |- context [if ?x then _ else _] => destruct x eqn:?; cbn; try lia end.
Qed.
Lemma bind_loop {E S R A} (body : S -> res E (step S R)) f s r (k : R -> res E A) :
  runs body s r -> bind (loop f body s) k <> Fuel -> bind (loop f body s) k = k r.
Proof.
  intros H N. rewrite (runs_loop _ _ _ H f); [reflexivity|]. intros X. rewrite X in N. apply N. reflexivity.
Qed.

Lemma rest_head c s r : header_rest (c :: s) r -> (c = 32 \/ c = 9 \/ c = 35 \/ c = 10 \/ c = 13 \/ 128 <= c)%N.
Proof.
  intros H. inversion H as [? ? ? B|? ? ? L|? E]; subst; [destruct B; lia|lia|].
  destruct E as [E|E]; [discriminate|]. destruct (break_shapes _ E) as [(x & X)|[(x & X)|[(x & X)|(y & x & X)]]]; injection X as ->; lia.
Qed.

Section Forward.
  Variable o : flags.
  Hypothesis NE : extendable o = false.

  Lemma line_forward s w r : line s w r -> all_ascii s -> forall st scr bo, exists st' scr',
    runs (block_line_body o) (mkF s st scr bo) (mkF r st' scr' bo) /\ scol st' = scol st + List.length w.
  Proof.
    induction 1 as [s E|c s w r SC B L IH]; intros A st scr bo.
    - exists st, scr. split; [|cbn; lia]. apply runs_done. unfold block_line_body. cbn [f_buf]. rewrite (proj2 (breakZ_iff s) E). reflexivity.
    - assert (C : (c < 128)%N /\ encode c = [c]).
      { destruct (N.ltb_spec c 128) as [C|C]; [split; [exact C|apply char_ascii, C]|]. exfalso.
        apply Forall_app in A as [A _]. unfold encode in A. replace (c <? 128)%N with false in A by lia.
        destruct (c <? 2048)%N; [|destruct (c <? 65536)%N]; apply Forall_inv in A; cbn beta in A; lia. }
      destruct C as [C EC]. rewrite EC in *. cbn [app] in *.
      destruct (IH (Forall_inv_tail A) (supd st 1 0 1) (if bo then scr else scr ++ [c]) bo) as (st' & scr' & R & CO).
      exists st', scr'. split; [|rewrite CO; cbn; lia]. eapply runs_next; [|exact R].
      unfold block_line_body. cbn [f_buf]. assert (is_breakZ (c :: s) = false) as ->.
      { destruct (is_breakZ (c :: s)) eqn:X; [|reflexivity]. apply breakZ_iff in X as [X|X]; [discriminate|congruence]. }
      rewrite (cache_static _ _ _ NE). cbn [bind]. unfold f_adv, f_push_head. destruct bo; cbn [f_bor f_push f_buf f_st f_scr firstn];
      rewrite (adv_ascii _ _ 1 A) by (cbn; lia); reflexivity.
  Qed.
  Lemma comment_forward s w r : line s w r -> all_ascii s -> forall st, exists st', runs (skip_line_body o) (s, st) (r, st').
  Proof.
    induction 1 as [s E|c s w r SC B L IH]; intros A st.
    - exists st. apply runs_done. unfold skip_line_body. rewrite (proj2 (breakZ_iff s) E). reflexivity.
    - assert (C : (c < 128)%N /\ encode c = [c]).
      { destruct (N.ltb_spec c 128) as [C|C]; [split; [exact C|apply char_ascii, C]|]. exfalso.
        apply Forall_app in A as [A _]. unfold encode in A. replace (c <? 128)%N with false in A by lia.
        destruct (c <? 2048)%N; [|destruct (c <? 65536)%N]; apply Forall_inv in A; cbn beta in A; lia. }
      destruct C as [C EC]. rewrite EC in *. cbn [app] in *.
      destruct (IH (Forall_inv_tail A) (supd st 1 0 1)) as (st' & R).
      exists st'. eapply runs_next; [|exact R]. unfold skip_line_body. assert (is_breakZ (c :: s) = false) as ->.
      { destruct (is_breakZ (c :: s)) eqn:X; [|reflexivity]. apply breakZ_iff in X as [X|X]; [discriminate|congruence]. }
      rewrite (cache_static _ _ _ NE). cbn [bind]. rewrite (adv_ascii _ _ 1 A) by (cbn; lia). reflexivity.
  Qed.
  Lemma blanks_forward s r : header_rest s r -> all_ascii s -> forall st, exists b st1, runs (skip_blank_body o) (s, st) (b, st1) /\
    all_ascii b /\ ((exists x w r1, b = 35%N :: x /\ line b w r1 /\ r = skipn (break_len r1) r1) \/
      (b = [] \/ break_len b <> 0) /\ r = skipn (break_len b) b).
  Proof.
    induction 1 as [c s r B H IH|s w r L|s E]; intros A st.
    - destruct (IH (Forall_inv_tail A) (supd st 1 0 1)) as (b & st1 & R & AB & K). exists b, st1. split; [|auto].
      eapply runs_next; [|exact R]. unfold skip_blank_body. rewrite (proj2 (is_blank_iff (c :: s))) by (exists c, s; auto).
      rewrite (cache_static _ _ _ NE). cbn [bind]. rewrite (adv_ascii _ _ 1 A) by (cbn; lia). reflexivity.
    - exists (35%N :: s), st. split; [apply runs_done; reflexivity|]. split; [exact A|]. left. eauto 10.
    - exists s, st. split; [|auto]. apply runs_done. unfold skip_blank_body. assert (is_blank s = false) as ->; [|reflexivity].
      destruct (is_blank s) eqn:X; [|reflexivity]. apply is_blank_iff in X as (c & r & -> & [-> | ->]); destruct E as [E|E]; try discriminate;
      exfalso; apply E; destruct r as [|? [|? ?]]; reflexivity.
  Qed.
  Lemma header_line_forward s r : header_rest s r -> all_ascii s -> forall st, exists b1 st1 st2,
    skip_blanks o s st = Ok (b1, st1) /\ is_wsZ b1 = true /\ adv_line b1 st1 = Ok (r, st2) /\ scol st2 = 0 /\ all_ascii r.
  Proof.
    intros H A st. destruct (blanks_forward _ _ H A st) as (b & st1 & R & AB & K).
    pose proof (skip_blanks_leaf o s st) as L.
    assert (NF : skip_blanks o s st <> Fuel) by (destruct (skip_blanks o s st); cbn in L; congruence || tauto).
    assert (WZ : forall x, x = [] \/ break_len x <> 0 -> is_wsZ x = true).
    { intros x X. apply wsZ_iff. destruct X as [X|X]; [auto|right; right; exact X]. }
    unfold skip_blanks in NF |- *. rewrite (cache_static _ _ _ NE) in NF |- *. cbn [bind] in NF |- *.
    rewrite (bind_loop _ _ _ _ _ R NF) in NF |- *. destruct K as [(x & w & r1 & -> & LN & ->)|[K ->]].
    - cbn [at_is nth_error] in NF |- *. change (35 =? 35)%N with true in *. cbn iota in NF |- *.
      destruct (comment_forward _ _ _ LN AB st1) as (st2 & R2). rewrite (runs_loop _ _ _ R2 _ NF).
      assert (AR : all_ascii r1). { apply line_split in LN. rewrite LN in AB. apply Forall_app in AB. apply AB. }
      assert (ER : r1 = [] \/ break_len r1 <> 0). { clear -LN. induction LN; auto. }
      exists r1, st2, (supd st2 (break_len r1) 1 0). split; [reflexivity|]. split; [apply WZ, ER|].
      split; [apply adv_line_ascii, AR|]. split; [reflexivity|apply ascii_skipn, AR].
    - assert (at_is b 0 35 = false) as Z.
      { destruct b as [|c b]; [reflexivity|]. unfold at_is. cbn [nth_error]. destruct (c =? 35)%N eqn:X; [|reflexivity].
        assert (c = 35%N) as -> by lia. destruct K as [K|K]; [discriminate|]. exfalso. apply K. destruct b as [|? [|? ?]]; reflexivity. }
      rewrite Z in NF |- *. exists b, st1, (supd st1 (break_len b) 1 0). split; [reflexivity|]. split; [apply WZ, K|].
      split; [apply adv_line_ascii, AB|]. split; [reflexivity|apply ascii_skipn, AB].
  Qed.

  (** ** Header *)
  Lemma headers_forward h s r st : In h headers -> header_rest s r -> all_ascii (h ++ s) ->
    (h = [] -> forall c d x, s = c :: d :: x -> is_digit d = false /\ d <> 43%N /\ d <> 45%N) ->
    exists st', scan_headers o (h ++ s) st = Ok (chomps h, None, s, st').
  Proof.
    intros IN H A SEC. unfold scan_headers. rewrite (cache_static _ _ _ NE). cbn [bind].
    assert (HD : forall c x, s = c :: x -> is_digit c = false /\ (c =? 43)%N = false /\ (c =? 45)%N = false).
    { intros c x ->. apply rest_head in H. unfold is_digit. lia. }
    assert (AD : forall k, k = List.length h -> adv (h ++ s) st k = Ok (s, supd st k 0 k)).
    { intros k ->. rewrite adv_ascii; [|exact A|rewrite app_length; lia]. rewrite skipn_app, skipn_all, Nat.sub_diag. reflexivity. }
    unfold headers in IN. unfold chomps.
    repeat (destruct IN as [<- |IN]); try contradiction; cbn [app] in *; unfold at_is; cbn [nth_error existsb];
    repeat match goal with |- context [(?x =? ?y)%N] => is_ground x; let b := eval vm_compute in (x =? y)%N in change (x =? y)%N with b end;
    repeat match goal with |- context [is_digit ?x] => is_ground x; let b := eval vm_compute in (is_digit x) in change (is_digit x) with b end;
    cbn [orb];
    destruct s as [|c s]; cbn [nth_error];
    repeat match goal with |- context [N.to_nat (48 - 48)] => change (N.to_nat (48 - 48)) with 0 end.
    all: try (destruct (HD _ _ eq_refl) as (D1 & D2 & D3)); rewrite ?D1, ?D2, ?D3; cbn [orb Nat.add].
    all: try (first [rewrite (AD 0 eq_refl) | rewrite (AD 1 eq_refl) | rewrite (AD 2 eq_refl)]; eexists; reflexivity).
    destruct s as [|d s]; cbn [nth_error]; [cbn [Nat.add]; rewrite (AD 0 eq_refl); eexists; reflexivity|].
    destruct (SEC eq_refl c d s eq_refl) as (S1 & S2 & S3). rewrite S1.
    replace (d =? 43)%N with false by lia. replace (d =? 45)%N with false by lia. cbn [orb Nat.add].
    rewrite (AD 0 eq_refl); eexists; reflexivity.
  Qed.

  (** ** Lines *)
  Lemma space_decreases l p q : detect_space_body o l p = Ok (Next q) -> List.length (fst (fst q)) < List.length (fst (fst p)).
  Proof.
    destruct p as [[b st] bo]. unfold detect_space_body. destruct (is_blank b) eqn:B; [|discriminate]. intros H.
    apply bind_inv in H as (u & _ & H). destruct (at_is b 0 9); [discriminate|]. apply bind_inv in H as ([b' s'] & A & H).
    injection H as <-. apply adv_ok in A as (-> & _ & _). cbn [fst]. apply is_blank_iff in B as (c & r & -> & _). rewrite skipn_length. cbn. lia.
  Qed.
  Lemma leading_forward k m n s k' m' r : leading k m n s k' m' r -> all_ascii s -> forall st bo l, scol st = k ->
    exists b1 st1 bo1, runs (detect_space_body o l) (s, st, bo) (b1, st1, bo1) /\ all_ascii b1 /\
      (n = 0 /\ is_break b1 = false /\ b1 = r /\ scol st1 = k' /\ m' = Nat.max m k' \/
       is_break b1 = true /\ exists st' bo', scol st' = k' /\
         runs (detect_body o) (skipn (break_len b1) b1, supd st1 (break_len b1) 1 0, bo1, S l, Nat.max m (scol st1)) (r, st', bo', l + n, m')).
  Proof.
    induction 1 as [k m s W|k m n s k' m' r H IH|k m n s k' m' r B H IH]; intros A st bo l C.
    - exists s, st, bo. assert (is_ws s = false) as X.
      { destruct (is_ws s) eqn:X; [|reflexivity]. exfalso. apply W. unfold is_ws in X. apply orb_prop in X as [X|X]; [left; apply is_blank_iff, X|right; apply is_break_iff, X]. }
      unfold is_ws in X. apply orb_false_elim in X as [X1 X2].
      split; [apply runs_done; unfold detect_space_body; rewrite X1; reflexivity|]. split; [exact A|]. left. auto.
    - destruct (IH (Forall_inv_tail A) (supd st 1 0 1) (if bo && (0 <? l) then false else bo) l) as (b1 & st1 & bo1 & R & A1 & K); [cbn; lia|].
      exists b1, st1, bo1. split; [|auto]. eapply runs_next; [|exact R].
      unfold detect_space_body. change (is_blank (32%N :: s)) with true. cbn iota. rewrite (cache_static _ _ _ NE). cbn [bind].
      change (at_is (32%N :: s) 0 9) with false. cbn iota. rewrite (adv_ascii _ _ 1 A) by (cbn; lia). reflexivity.
    - exists s, st, bo. assert (X1 : is_blank s = false).
      { destruct (is_blank s) eqn:X; [|reflexivity]. apply is_blank_iff in X as (c & x & -> & [-> | ->]); exfalso; apply B; destruct x as [|? [|? ?]]; reflexivity. }
      split; [apply runs_done; unfold detect_space_body; rewrite X1; reflexivity|]. split; [exact A|]. right.
      split; [apply is_break_iff, B|]. rewrite C.
      destruct (IH (ascii_skipn _ _ A) (supd st (break_len s) 1 0) bo (S l) eq_refl) as (b1 & st1 & bo1 & R & A1 & K).
      assert (RS : loop (fuel_of (skipn (break_len s) s)) (detect_space_body o (S l)) ((skipn (break_len s) s : str), supd st (break_len s) 1 0, bo) = Ok (b1, st1, bo1)).
      { apply (runs_fuel _ (fun p => List.length (fst (fst p))) _ _ R); [apply space_decreases|unfold fuel_of; cbn [fst]; lia]. }
      assert (MX : forall a b, (if a <? b then b else a) = Nat.max a b) by (intros a b; destruct (a <? b) eqn:?; lia).
      destruct K as [(-> & NB & -> & C1 & ->)|(BR & st' & bo' & C' & R')].
      + exists st1, bo1. split; [exact C1|]. replace (l + 1) with (S l) by lia. apply runs_done. unfold detect_body.
        rewrite (cache_static _ _ _ NE). cbn [bind]. rewrite RS. cbn [bind]. rewrite (cache_static _ _ _ NE). cbn [bind].
        rewrite NB. cbn [negb]. rewrite MX, C1. reflexivity.
      + exists st', bo'. split; [exact C'|]. replace (l + S n) with (S l + n) by lia. eapply runs_next; [|exact R'].
        unfold detect_body. rewrite (cache_static _ _ _ NE). cbn [bind]. rewrite RS. cbn [bind]. rewrite (cache_static _ _ _ NE). cbn [bind].
        rewrite BR. cbn [negb]. rewrite (adv_line_ascii _ _ A1). cbn [bind]. rewrite MX. reflexivity.
  Qed.
  Lemma detect_forward n s k' m' r : leading 0 0 n s k' m' r -> all_ascii s -> forall st parent, scol st = 0 ->
    exists st' bo', detect_indent_level o s st parent 0 true = Ok (Nat.max m' (S parent), r, st', n, bo') /\ scol st' = k'.
  Proof.
    intros H A st parent C. destruct (leading_forward _ _ _ _ _ _ _ H A st true 0 C) as (b1 & st1 & bo1 & R & A1 & K).
    assert (RS : loop (fuel_of s) (detect_space_body o 0) (s, st, true) = Ok (b1, st1, bo1)).
    { apply (runs_fuel _ (fun p => List.length (fst (fst p))) _ _ R); [apply space_decreases|unfold fuel_of; cbn [fst]; lia]. }
    assert (MX : forall a b, (if a <? b then b else a) = Nat.max a b) by (intros a b; destruct (a <? b) eqn:?; lia).
    assert (RR : exists st' bo', scol st' = k' /\ runs (detect_body o) (s, st, true, 0, 0) (r, st', bo', n, m')).
    { destruct K as [(-> & NB & -> & C1 & ->)|(BR & st' & bo' & C' & R')].
      - exists st1, bo1. split; [exact C1|]. apply runs_done. unfold detect_body.
        rewrite (cache_static _ _ _ NE). cbn [bind]. rewrite RS. cbn [bind]. rewrite (cache_static _ _ _ NE). cbn [bind].
        rewrite NB. cbn [negb]. rewrite MX, C1. reflexivity.
      - exists st', bo'. split; [exact C'|]. eapply runs_next; [|exact R'].
        unfold detect_body. rewrite (cache_static _ _ _ NE). cbn [bind]. rewrite RS. cbn [bind]. rewrite (cache_static _ _ _ NE). cbn [bind].
        rewrite BR. cbn [negb]. rewrite (adv_line_ascii _ _ A1). cbn [bind]. rewrite MX. reflexivity. }
    destruct RR as (st' & bo' & C' & RR). exists st', bo'. split; [|exact C'].
    pose proof (detect_indent_leaf o s st parent 0 true) as L.
    assert (NF : detect_indent_level o s st parent 0 true <> Fuel) by (destruct (detect_indent_level o s st parent 0 true); cbn in L; congruence || tauto).
    unfold detect_indent_level in NF |- *. rewrite (bind_loop _ _ _ _ _ RR NF). rewrite MX. replace (parent + 1) with (S parent) by lia. reflexivity.
  Qed.
  Lemma margin_forward indent k n s k' r : margin indent k n s k' r -> all_ascii s -> forall st l, scol st = k ->
    exists st', runs (scan_indent_body o indent) (s, st, l) (r, st', l + n) /\ scol st' = k' /\ all_ascii r.
  Proof.
    induction 1 as [k s H|k s H W|k n s k' r H M IH|k n s k' r H B M IH]; intros A st l C.
    - exists st. rewrite Nat.add_0_r. split; [|auto]. apply runs_done. unfold scan_indent_body.
      replace (scol st <? indent) with false by lia. reflexivity.
    - exists st. rewrite Nat.add_0_r. split; [|auto]. apply runs_done. unfold scan_indent_body.
      assert (is_ws s = false) as ->; [|rewrite andb_false_r; reflexivity].
      destruct (is_ws s) eqn:X; [|reflexivity]. exfalso. apply W. unfold is_ws in X. apply orb_prop in X as [X|X]; [left; apply is_blank_iff, X|right; apply is_break_iff, X].
    - destruct (IH (Forall_inv_tail A) (supd st 1 0 1) l) as (st' & R & K); [cbn; lia|]. exists st'. split; [|exact K].
      eapply runs_next; [|exact R]. unfold scan_indent_body. replace (scol st <? indent) with true by lia.
      change (is_ws (32%N :: s)) with true. change (at_is (32%N :: s) 0 32) with true. cbn [andb].
      rewrite (adv_ascii _ _ 1 A) by (cbn; lia). cbn [bind fst]. rewrite (cache_static _ _ _ NE). reflexivity.
    - destruct (IH (ascii_skipn _ _ A) (supd st (break_len s) 1 0) (S l) eq_refl) as (st' & R & K). exists st'. split; [|exact K].
      replace (l + S n) with (S l + n) by lia. eapply runs_next; [|exact R]. unfold scan_indent_body. replace (scol st <? indent) with true by lia.
      assert (is_break s = true) as BR by (apply is_break_iff, B). unfold is_ws. rewrite BR, orb_true_r. cbn [andb].
      assert (at_is s 0 32 = false /\ at_is s 0 9 = false) as [-> ->].
      { destruct s as [|c s]; [auto|]. unfold at_is. cbn [nth_error]. destruct (break_shapes _ B) as [(x & X)|[(x & X)|[(x & X)|(y & x & X)]]]; injection X as -> _; auto. }
      rewrite (adv_line_ascii _ _ A). cbn [bind fst]. rewrite (cache_static _ _ _ NE). reflexivity.
  Qed.
  Lemma scan_indent_forward indent n s k r : margin indent 0 n s k r -> all_ascii s -> 1 <= indent -> forall st l, scol st = 0 ->
    exists st', scan_indent o s st l indent = Ok (r, st', l + n) /\ scol st' = k.
  Proof.
    intros M A I1 st l C. destruct (margin_forward _ _ _ _ _ _ M A st l C) as (st' & R & C' & _). exists st'. split; [|exact C'].
    pose proof (scan_indent_leaf o s st l indent) as L.
    assert (NF : scan_indent o s st l indent <> Fuel) by (destruct (scan_indent o s st l indent); cbn in L; congruence || tauto).
    unfold scan_indent in NF |- *. rewrite C in *. replace (indent <=? 0) with false in * by lia. rewrite (cache_static _ _ _ NE) in NF |- *. 
    cbn [bind] in NF |- *. apply (runs_loop _ _ _ R), NF.
  Qed.

  Variables (base : str) (st0 : stats).
  Hypothesis AB : all_ascii base.
  Let VB : valid base := valid_text base AB.

  Definition in_range (b : bstate) : Prop :=
    f_bor (b_f b) = true -> 0 < b_lines b -> b_start b <= b_end b /\ b_end b <= List.length base.
  Lemma slice_ascii a b : a <= b -> b <= List.length base -> slice (E := scan_error) base a b = Ok (firstn (b - a) (skipn a base)).
  Proof.
    intros H L. unfold slice. rewrite (ascii_bound base a AB), (ascii_bound base b AB) by lia. replace (Nat.leb a b) with true by lia. reflexivity.
  Qed.
  Lemma round_forward indent fold b w s1 n k r : 1 <= indent -> all_ascii (f_buf (b_f b)) -> f_buf (b_f b) <> [] ->
    scol (f_st (b_f b)) = indent -> in_range b -> line (f_buf (b_f b)) w s1 ->
    (s1 = [] /\ r = [] /\ n = 0 \/ break_len s1 <> 0 /\ exists n', n = S n' /\ margin indent 0 n' (skipn (break_len s1) s1) k r) ->
    exists b1, block_body o base st0 indent fold b = Ok (Next b1) /\ f_buf (b_f b1) = r /\ b_lines b1 = n /\
      (s1 <> [] -> scol (f_st (b_f b1)) = k).
  Proof.
    intros I1 A NN C IR LN RE. unfold block_body. rewrite C, Nat.eqb_refl.
    assert (is_empty (f_buf (b_f b)) = false) as -> by (destruct (f_buf (b_f b)); [congruence|reflexivity]). cbn [negb andb].
    match goal with |- context [bind ?m _] => assert (S1 : exists s', m = Ok s' /\ f_buf s' = f_buf (b_f b) /\ f_st s' = f_st (b_f b)) end.
    { destruct (f_bor (b_f b)) eqn:FB; cbn [andb]; [|eexists; split; [reflexivity|auto]].
      destruct (Nat.ltb_spec 0 (b_lines b)) as [L|L]; [|eexists; split; [reflexivity|auto]].
      destruct (IR FB L) as [R1 R2]. rewrite slice_ascii by assumption. cbn [bind]. eexists. split; [reflexivity|auto]. }
    destruct S1 as (s' & -> & E1 & E2). cbn [bind]. cbv zeta.
    match goal with |- context [loop _ (block_line_body o) ?X] => set (s2 := X) end.
    assert (S2 : f_buf s2 = f_buf (b_f b) /\ f_st s2 = f_st (b_f b)).
    { unfold s2. destruct fold; [destruct (b_lines b) as [|[|?]]|]; cbn [f_push f_buf f_st]; auto. }
    clearbody s2. destruct S2 as [F1 F2].
    rewrite (cache_static _ _ _ NE). cbn [bind].
    destruct (line_forward _ _ _ LN A (f_st s2) (f_scr s2) (f_bor s2)) as (st' & scr' & R & CO).
    rewrite <- F1 in R. assert (ES : s2 = mkF (f_buf s2) (f_st s2) (f_scr s2) (f_bor s2)) by (destruct s2; reflexivity).
    rewrite <- ES in R.
    assert (LP : loop (fuel_of (f_buf s2)) (block_line_body o) s2 = Ok (mkF s1 st' scr' (f_bor s2))).
    { apply (runs_loop _ _ _ R). pose proof (block_line_leaf o s2) as L. destruct (loop (fuel_of (f_buf s2)) (block_line_body o) s2); cbn in L; congruence || tauto. }
    rewrite LP. cbn [bind f_buf f_st f_scr f_bor]. rewrite (cache_static _ _ _ NE). cbn [bind].
    assert (A1 : all_ascii s1). { rewrite (line_split _ _ _ LN) in A. apply Forall_app in A. apply A. }
    destruct RE as [(-> & -> & ->)|(BL & n' & -> & M)].
    - change (is_break []) with false. cbn [bind]. unfold scan_indent. cbn [f_st f_buf f_scr f_bor].
      replace (indent <=? scol st') with true by (rewrite CO, F2; lia). cbn [bind]. eexists. split; [reflexivity|]. cbn [b_f f_buf b_lines].
      split; [reflexivity|]. split; [reflexivity|congruence].
    - assert (is_break s1 = true) as -> by (apply is_break_iff, BL). unfold f_adv_line. cbn [f_buf f_st f_scr f_bor].
      rewrite (adv_line_ascii _ _ A1). cbn [bind f_buf f_st f_scr f_bor].
      destruct (scan_indent_forward _ _ _ _ _ M (ascii_skipn _ _ A1) I1 (supd st' (break_len s1) 1 0) 1 eq_refl) as (st2 & E3 & C2).
      rewrite E3. cbn [bind]. eexists. split; [reflexivity|]. cbn [b_f f_buf f_st b_lines]. auto.
  Qed.
  Lemma lines_forward indent fold s v n r : text_lines fold indent s v n r -> 1 <= indent -> forall b T,
    f_buf (b_f b) = s -> s <> [] -> scol (f_st (b_f b)) = indent -> place base st0 (f_buf (b_f b)) (f_st (b_f b)) -> texts base st0 b T ->
    in_range b -> exists b', runs (block_body o base st0 indent fold) b b' /\ f_buf (b_f b') = r /\ b_lines b' = n /\ in_range b'.
  Proof.
    intros TL I1.
    assert (AP : forall b s, place base st0 b s -> all_ascii b). { intros b s' (k & _ & -> & _). apply ascii_skipn, AB. }
    assert (IR : forall b b1 T, block_body o base st0 indent fold b = Ok (Next b1) -> place base st0 (f_buf (b_f b)) (f_st (b_f b)) ->
      texts base st0 b T -> place base st0 (f_buf (b_f b1)) (f_st (b_f b1)) /\ in_range b1 /\ (b_lines b1 <> 0 -> exists T', texts base st0 b1 T')).
    { intros b b1 T E P TX. destruct (round_sound _ _ _ VB _ _ _ _ _ E P TX I1) as (_ & _ & w & s1 & LW & P1 & RE & BF & BT).
      split; [exact P1|]. split.
      - intros FB L. destruct (BT FB) as (Y1 & Y2 & Y3 & Y4 & Y5 & Y6 & Y7 & Y8 & Y9).
        assert (X : List.length (skipn (b_start b1) base) = List.length w + List.length s1) by (rewrite Y9; apply app_length).
        rewrite skipn_length in X. destruct RE as [(_ & _ & Z)|(Z & _)]; [lia|].
        assert (0 < List.length s1) by (destruct s1; [exfalso; apply Z; reflexivity|cbn; lia]). lia.
      - intros NZ. destruct (f_bor (b_f b1)) eqn:FB.
        + destruct (BT eq_refl) as (Y1 & Y2 & Y3 & Y4 & Y5 & Y6 & Y7 & Y8 & Y9). exists (firstn (b_end b1 - b_start b1) (skipn (b_start b1) base)).
          unfold texts. rewrite FB. split; [exact Y4|]. split; [congruence|]. right. auto.
        + exists (f_scr (b_f b1)). unfold texts. rewrite FB. reflexivity. }
    induction TL as [s w L|s w s1 n k r L BL M E|s w s1 n r v n' r' L BL M NN TL IH]; intros b T EB NE0 C P TX IN.
    - destruct (round_forward indent fold b w [] 0 0 []) as (b1 & E & R1 & R2 & R3); auto; [apply (AP _ _ P)|congruence|rewrite EB; exact L|].
      destruct (IR _ _ _ E P TX) as (P1 & IR1 & _).
      exists b1. split; [|auto]. eapply runs_next; [exact E|]. apply runs_done. unfold block_body. rewrite R1. cbn [is_empty negb]. rewrite andb_false_r. reflexivity.
    - destruct (round_forward indent fold b w s1 (S n) k r) as (b1 & E1 & R1 & R2 & R3); auto; [apply (AP _ _ P)|congruence|rewrite EB; exact L|right; eauto|].
      destruct (IR _ _ _ E1 P TX) as (P1 & IR1 & _).
      exists b1. split; [|auto]. eapply runs_next; [exact E1|]. apply runs_done. unfold block_body. rewrite R1, R3 by (intros ->; apply BL; reflexivity).
      destruct E as [E|E]; [|rewrite E; cbn [is_empty negb]; rewrite andb_false_r; reflexivity].
      apply Nat.eqb_neq in E. rewrite E. reflexivity.
    - destruct (round_forward indent fold b w s1 (S n) indent r) as (b1 & E1 & R1 & R2 & R3); auto; [apply (AP _ _ P)|congruence|rewrite EB; exact L|right; eauto|].
      destruct (IR _ _ _ E1 P TX) as (P1 & IR1 & TX1). destruct TX1 as (T' & TX1); [lia|].
      destruct (IH b1 T' R1 NN) as (b' & R & K); [apply R3; intros ->; apply BL; reflexivity|exact P1|exact TX1|exact IR1|].
      exists b'. split; [|exact K]. eapply runs_next; eassumption.
  Qed.
End Forward.
