(** The eager scanner of quoted scalars against its specification. *)
From Verif Require Export LazyFacts SpecQuoted Loops WhiteFacts.
From Verif Require Import Utf8Facts UriFacts BaseFacts ScanFacts History.
From Coq Require Import Lia ZifyBool ZifyN ZifyNat.
Open Scope nat_scope.

(** ** Escapes *)
Lemma escape_of_write c w : escape_of c = Some (Write w) ->
  exists v, In (c, v) escape_table /\ w = encode v.
Proof.
  unfold escape_of. intros H.
  repeat match goal with
  | K : (if ?x then _ else _) = Some (Write _) |- _ => destruct x eqn:?; [try discriminate|]
  end; try discriminate.
  all: assert (w = w) by reflexivity.
  all: match type of H with Some (Write ?x) = _ => assert (w = x) as -> by congruence end; clear H.
  all: repeat match goal with X : (_ =? _)%N = false |- _ => clear X | X : (_ || _)%bool = false |- _ => clear X end.
  1: exists 0%N. 2: exists 7%N. 3: exists 8%N. 4: exists 9%N. 5: exists 10%N. 6: exists 11%N. 7: exists 12%N.
  8: exists 13%N. 9: exists 27%N. 10: exists 32%N. 11: exists 34%N. 12: exists 47%N. 13: exists 92%N.
  14: exists 133%N. 15: exists 160%N. 16: exists 8232%N. 17: exists 8233%N.
  all: split; [|reflexivity].
  all: try match goal with X : (_ || _)%bool = true |- _ => apply orb_true_iff in X as [X|X] end.
  all: match goal with X : (_ =? _)%N = true |- _ => apply N.eqb_eq in X as -> end.
  all: cbn; tauto.
Qed.
Lemma escape_of_hex c n : escape_of c = Some (Hex n) -> In (c, n) numeric_escapes.
Proof.
  unfold escape_of. intros H.
  repeat match goal with
  | K : (if ?x then _ else _) = Some (Hex _) |- _ => destruct x eqn:?; [try discriminate|]
  end; try discriminate.
  all: match type of H with Some (Hex ?x) = _ => assert (n = x) as -> by congruence end.
  all: match goal with X : (_ =? _)%N = true |- _ => apply N.eqb_eq in X as -> end.
  all: cbn; tauto.
Qed.
Lemma escape_of_table c v : In (c, v) escape_table -> escape_of c = Some (Write (encode v)).
Proof.
  cbn. intros H. repeat destruct H as [H|H]; try contradiction; injection H as <- <-; reflexivity.
Qed.
Lemma escape_of_numeric c n : In (c, n) numeric_escapes -> escape_of c = Some (Hex n).
Proof.
  cbn. intros H. repeat destruct H as [H|H]; try contradiction; injection H as <- <-; reflexivity.
Qed.

Lemma is_hex_iff h : is_hex_byte h = true <-> hex_digit h.
Proof. unfold is_hex_byte, hex_digit, is_digit, rng. lia. Qed.
Lemma as_hex_value h : is_hex_byte h = true -> as_hex h = digit_value h.
Proof.
  unfold is_hex_byte, as_hex, digit_value, is_digit, rng. intros H.
  destruct ((65 <=? h)%N && (h <=? 70)%N) eqn:A; [destruct (h <=? 57)%N eqn:X, (h <=? 70)%N eqn:Y; lia|].
  destruct ((97 <=? h)%N && (h <=? 102)%N) eqn:B; destruct (h <=? 57)%N eqn:X; try lia;
    destruct (h <=? 70)%N eqn:Y; lia.
Qed.
Definition hex_from (ds : str) (v : N) : N := fold_left (fun v h => 16 * v + digit_value h)%N ds v.
Lemma read_hex_value n : forall buf v x, read_hex n buf v = Ok x ->
  exists ds r, buf = ds ++ r /\ List.length ds = n /\ Forall hex_digit ds /\ x = hex_from ds v.
Proof.
  induction n as [|n IH]; intros buf v x; cbn [read_hex].
  - intros E. assert (x = v) as -> by congruence. exists [], buf. repeat split; constructor.
  - destruct buf as [|b buf]; [discriminate|]. destruct (is_hex_byte b) eqn:H; [|discriminate].
    intros E. apply IH in E as (ds & r & -> & L & F & ->). exists (b :: ds), r.
    repeat split; [cbn; congruence|constructor; [apply is_hex_iff, H|exact F]|].
    unfold hex_from. cbn [fold_left]. f_equal. rewrite (as_hex_value _ H), N.shiftl_mul_pow2.
    change (2 ^ 4)%N with 16%N. lia.
Qed.
Lemma value_read_hex ds : forall r v, Forall hex_digit ds ->
  read_hex (List.length ds) (ds ++ r) v = Ok (hex_from ds v).
Proof.
  induction ds as [|h ds IH]; intros r v F; cbn [List.length read_hex app]; [reflexivity|].
  inversion F as [|x l H F']; subst. apply is_hex_iff in H. rewrite H, IH by exact F'.
  unfold hex_from. cbn [fold_left]. do 2 f_equal. rewrite (as_hex_value _ H), N.shiftl_mul_pow2.
  change (2 ^ 4)%N with 16%N. lia.
Qed.
Lemma digit_value_lt h : hex_digit h -> (digit_value h < 16)%N.
Proof.
  unfold hex_digit, digit_value. destruct (h <=? 57)%N eqn:A; [lia|]. destruct (h <=? 70)%N eqn:B; lia.
Qed.
Lemma hex_from_lt ds : forall v b, Forall hex_digit ds -> (v < b)%N ->
  (hex_from ds v < b * 16 ^ N.of_nat (List.length ds))%N.
Proof.
  induction ds as [|h ds IH]; intros v b F B; unfold hex_from in *; cbn [fold_left List.length].
  - cbn. lia.
  - inversion F as [|x l H F']; subst. apply digit_value_lt in H.
    pose proof (IH (16 * v + digit_value h)%N (16 * b)%N F' ltac:(lia)) as X.
    rewrite Nat2N.inj_succ, N.pow_succ_r'. lia.
Qed.

Lemma encode_table c v : In (c, v) escape_table -> scalar_value v /\ encode_point v = encode v.
Proof.
  cbn. unfold scalar_value.
  intros H. repeat destruct H as [H|H]; try contradiction; injection H as <- <-; (split; [lia|reflexivity]).
Qed.

Lemma unescape_denotes o b w n : at_is b 0 92 = true -> flow_unescape o b = Ok (w, n) ->
  exists e c, b = e ++ skipn n b /\ List.length e = n /\ denotes e c /\ w = encode_point c.
Proof.
  intros H. destruct (at_is_cons _ _ H) as (r & ->). unfold flow_unescape. rewrite H. cbn [negb].
  destruct (cache o (92%N :: r) 1) as [[]|e| |]; cbn [bind]; try discriminate.
  destruct (skip (92%N :: r) 1) as [buf|e| |] eqn:S1; cbn [bind]; try discriminate.
  pose proof (skip_leaf o (92%N :: r) 1) as LF. rewrite S1 in LF. cbn [leaf] in LF. destruct LF as [-> B1].
  cbn [skipn]. destruct (cache o r 1) as [[]|e| |]; cbn [bind]; try discriminate.
  destruct r as [|c r]; [discriminate|].
  destruct (escape_of c) as [[w'|k]|] eqn:E; [| |discriminate].
  - apply escape_of_write in E as (v & IN & ->).
    destruct (skip (c :: r) 1) as [buf|e| |] eqn:S2; cbn [bind]; try discriminate.
    pose proof (skip_leaf o (c :: r) 1) as LF. rewrite S2 in LF. cbn [leaf] in LF. destruct LF as [-> B2].
    intros X. assert (encode v = w) as <- by congruence.
    assert (n = 2) as ->.
    { assert (consumed (92%N :: c :: r) (skipn 1 (c :: r)) = n) as <- by congruence.
      unfold consumed. cbn [skipn List.length]. lia. }
    exists [92%N; c], v. repeat split; [constructor; exact IN|].
    symmetry. apply (encode_table _ _ IN).
  - apply escape_of_hex in E.
    destruct (skip (c :: r) 1) as [buf|e| |] eqn:S2; cbn [bind]; try discriminate.
    pose proof (skip_leaf o (c :: r) 1) as LF. rewrite S2 in LF. cbn [leaf] in LF. destruct LF as [-> B2].
    cbn [skipn]. destruct (cache o r k) as [[]|e| |]; cbn [bind]; try discriminate.
    destruct (read_hex k r 0) as [v|e| |] eqn:RH; cbn [bind]; try discriminate.
    destruct (skip r k) as [buf|e| |] eqn:S3; cbn [bind]; try discriminate.
    pose proof (skip_leaf o r k) as LF. rewrite S3 in LF. cbn [leaf] in LF. destruct LF as [-> B3].
    intros X. assert (w = encode_point v) as -> by congruence.
    apply read_hex_value in RH as (ds & t & -> & L & F & ->).
    rewrite skipn_app, skipn_all2 in X by lia.
    replace (k - List.length ds) with 0 in X by lia. cbn [skipn app] in X.
    assert (n = S (S k)) as ->.
    { assert (consumed (92%N :: c :: ds ++ t) t = n) as <- by congruence.
      unfold consumed. cbn [List.length]. rewrite app_length. lia. }
    exists (92%N :: c :: ds), (hex_number ds). cbn [skipn app].
    rewrite skipn_app, skipn_all2 by lia. replace (k - List.length ds) with 0 by lia.
    repeat split; [cbn; lia|econstructor; eauto].
Qed.

(** ** The locals of the scanner *)
Lemma skip_ok {E} s n r : skip (E := E) s n = Ok r -> r = skipn n s /\ is_boundary s n = true.
Proof. unfold skip. destruct (is_boundary s n); [|discriminate]. intros X. split; congruence. Qed.
Lemma adv_ok s st n b st' : adv s st n = Ok (b, st') ->
  b = skipn n s /\ st' = supd st n 0 n /\ is_boundary s n = true.
Proof.
  unfold adv. destruct (skip s n) as [r|e| |] eqn:K; cbn [bind]; try discriminate.
  apply skip_ok in K as [-> B]. intros X. repeat split; [congruence|congruence|exact B].
Qed.
Lemma adv_line_ok s st b st' : adv_line s st = Ok (b, st') ->
  b = skipn (break_amt s) s /\ st' = supd st (break_amt s) 1 0 /\ is_boundary s (break_amt s) = true.
Proof.
  unfold adv_line. destruct (skip s (break_amt s)) as [r|e| |] eqn:K; cbn [bind]; try discriminate.
  apply skip_ok in K as [-> B]. intros X. repeat split; [congruence|congruence|exact B].
Qed.
Lemma bind_inv {E A B} (m : res E A) (k : A -> res E B) b : bind m k = Ok b -> exists a, m = Ok a /\ k a = Ok b.
Proof. destruct m; cbn; try discriminate. eauto. Qed.

Section Quoted.
  Variable base : str.

  Definition txt (s : fstate) : str :=
    if f_bor s then firstn (consumed base (f_buf s) - 1) (skipn 1 base) else f_scr s.
  (** The text read so far starts after the quote. *)
  Definition inside (s : fstate) : Prop :=
    exists k, 1 <= k <= List.length base /\ f_buf s = skipn k base /\ is_boundary base k = true /\
      (f_bor s = true -> f_scr s = []).

  Lemma consumed_skipn k : k <= List.length base -> consumed base (skipn k base) = k.
  Proof. intros H. unfold consumed. rewrite skipn_length. lia. Qed.
  Lemma firstn_skipn_split {A} (l : list A) a n : firstn (a + n) l = firstn a l ++ firstn n (skipn a l).
  Proof. revert l. induction a as [|a IH]; intros [|x l]; cbn; rewrite ?firstn_nil; auto. f_equal. apply IH. Qed.

  Lemma txt_adv s n b st : inside s -> f_adv s n = Ok (mkF b st (f_scr s) (f_bor s)) ->
    txt (mkF b st (f_scr s) (f_bor s)) = if f_bor s then txt s ++ firstn n (f_buf s) else txt s.
  Proof.
    intros (k & K & E & BD & SC) H. unfold f_adv in H.
    apply bind_inv in H as ([b' st'] & A & H). apply adv_ok in A as (-> & -> & B').
    assert (b = skipn n (f_buf s)) as -> by congruence.
    unfold txt. cbn [f_bor f_buf f_scr]. destruct (f_bor s); [|reflexivity].
    apply boundary_le in B'. rewrite E, skipn_length in B'.
    rewrite E, skipn_skipn, !consumed_skipn by lia.
    replace (k + n - 1) with ((k - 1) + n) by lia. rewrite firstn_skipn_split. f_equal.
    rewrite skipn_skipn. replace (1 + (k - 1)) with k by lia. reflexivity.
  Qed.

  (** Advancing with or without a push of what is read. *)
  Lemma adv_inv s n s' : inside s -> f_adv s n = Ok s' ->
    inside s' /\ f_buf s' = skipn n (f_buf s) /\ f_st s' = supd (f_st s) n 0 n /\ f_bor s' = f_bor s /\
    is_boundary (f_buf s) n = true /\ f_scr s' = f_scr s /\
    txt s' = if f_bor s then txt s ++ firstn n (f_buf s) else txt s.
  Proof.
    intros IN H. assert (H' := H). unfold f_adv in H. apply bind_inv in H as ([b' st'] & A & H).
    apply adv_ok in A as (-> & -> & B').
    assert (s' = mkF (skipn n (f_buf s)) (supd (f_st s) n 0 n) (f_scr s) (f_bor s)) as -> by congruence.
    cbn [f_buf f_st f_bor f_scr]. split; [|repeat split; auto; apply (txt_adv s); assumption].
    destruct IN as (k & K & E & BD & SC). exists (k + n). cbn [f_buf f_bor f_scr].
    assert (L := boundary_le _ _ B'). rewrite E, skipn_length in L. rewrite E, skipn_skipn.
    repeat split; try lia; [|exact SC]. apply boundary_add; [exact BD|]. rewrite <- E. exact B'.
  Qed.
  Lemma adv_line_inv s s' : inside s -> f_adv_line s = Ok s' ->
    inside s' /\ f_buf s' = skipn (break_amt (f_buf s)) (f_buf s) /\
    f_st s' = supd (f_st s) (break_amt (f_buf s)) 1 0 /\ f_bor s' = f_bor s /\
    f_scr s' = f_scr s /\ (f_bor s = false -> txt s' = txt s).
  Proof.
    intros IN H. unfold f_adv_line in H. apply bind_inv in H as ([b' st'] & A & H).
    apply adv_line_ok in A as (-> & -> & B').
    assert (s' = mkF (skipn (break_amt (f_buf s)) (f_buf s)) (supd (f_st s) (break_amt (f_buf s)) 1 0) (f_scr s) (f_bor s))
      as -> by congruence.
    cbn [f_buf f_st f_bor f_scr]. repeat split; auto.
    - destruct IN as (k & K & E & BD & SC). exists (k + break_amt (f_buf s)). cbn [f_buf f_bor f_scr].
      assert (L := boundary_le _ _ B'). rewrite E, skipn_length in L.
      split; [rewrite E; lia|]. split; [rewrite E at 2; apply skipn_skipn|]. split; [|exact SC].
      apply boundary_add; [exact BD|]. rewrite <- E. exact B'.
    - unfold txt. cbn [f_bor f_scr]. intros ->. reflexivity.
  Qed.
  Lemma no_borrow_inv s s' : inside s -> f_no_borrow base s = Ok s' ->
    inside s' /\ f_buf s' = f_buf s /\ f_st s' = f_st s /\ f_bor s' = false /\ txt s' = txt s.
  Proof.
    intros IN H. unfold f_no_borrow in H. destruct (f_bor s) eqn:B.
    - apply bind_inv in H as (t & S1 & H).
      assert (s' = mkF (f_buf s) (f_st s) (f_scr s ++ t) false) as -> by congruence.
      unfold slice in S1. destruct (_ && _ && _); [|discriminate].
      assert (firstn (consumed base (f_buf s) - 1) (skipn 1 base) = t) as <- by congruence.
      destruct IN as (k & K & E & BD & SC). rewrite (SC B).
      cbn [f_buf f_st f_bor]. unfold txt. cbn [f_bor f_scr f_buf]. rewrite B. cbn [app].
      repeat split. exists k. cbn [f_buf f_bor]. repeat split; try tauto; try lia; congruence.
    - assert (s' = s) as -> by congruence. repeat split; auto.
  Qed.
  Lemma push_inv s t : inside s -> f_bor s = false ->
    inside (f_push s t) /\ txt (f_push s t) = txt s ++ t.
  Proof.
    intros (k & K & E & BD & SC) B. unfold txt. cbn [f_push f_bor f_scr]. rewrite B.
    split; [|reflexivity]. exists k. cbn. rewrite B. repeat split; try tauto; try lia; congruence.
  Qed.
  Lemma adv_head_inv s s' : inside s -> f_adv (f_push_head s) 1 = Ok s' ->
    inside s' /\ f_buf s' = skipn 1 (f_buf s) /\ f_st s' = supd (f_st s) 1 0 1 /\
    is_boundary (f_buf s) 1 = true /\ txt s' = txt s ++ firstn 1 (f_buf s).
  Proof.
    intros IN H. unfold f_push_head in H. destruct (f_bor s) eqn:B.
    - apply adv_inv in H as (I & E & ST & _ & BD & _ & T); [|exact IN]. rewrite B in T. auto.
    - destruct (push_inv s (firstn 1 (f_buf s)) IN B) as [IP TP].
      apply adv_inv in H as (I & E & ST & _ & BD & _ & T); [|exact IP]. cbn [f_push f_bor] in T. rewrite B in T.
      cbn [f_push f_buf f_st] in E, ST, BD. rewrite T, TP. auto.
  Qed.
End Quoted.

(** ** Reading without regard to the validity of escapes *)
Inductive qraw (single : bool) : str -> str -> str -> Prop :=
| r_close r : ~ (single = true /\ exists r', r = 39%N :: r') ->
    qraw single ((if single then 39%N else 34%N) :: r) [] r
| r_char c s v r : (c < 128)%N -> ~ white (c :: s) -> c <> (if single then 39 else 34)%N ->
    (single = false -> c <> 92%N) -> qraw single s v r -> qraw single (c :: s) (c :: v) r
| r_pair s v r : single = true -> qraw single s v r -> qraw single (39 :: 39 :: s)%N (39 :: v)%N r
| r_escape e c s v r : single = false -> denotes e c -> qraw single s v r ->
    qraw single (e ++ s) (encode_point c ++ v) r
| r_blanks g s v r : g <> [] -> gap false 0 (g ++ s) s false -> qraw single s v r ->
    qraw single (g ++ s) (g ++ v) r
| r_fold n s s' v r l : gap false (S n) s s' l -> (l = true -> ~ document_marker s') ->
    qraw single s' v r -> qraw single s (folded (S n) ++ v) r
| r_join n s s' v r l : single = false -> break_len s <> 0 -> gap false (S n) s s' l ->
    (l = true -> ~ document_marker s') ->
    qraw single s' v r -> qraw single (92%N :: s) (repeat 10%N n ++ v) r.

Lemma gap_suffix l n s r l' : gap l n s r l' -> exists g, s = g ++ r.
Proof.
  induction 1 as [l s W|l n c s r l' B G (g & ->)|l n s r l' B G (g & IH)].
  - exists []. reflexivity.
  - exists (c :: g). reflexivity.
  - exists (firstn (break_len s) s ++ g). rewrite <- app_assoc, <- IH. symmetry. apply firstn_skipn.
Qed.
Lemma gap_zero l n s r l' : gap l n s r l' -> n = 0 -> exists g, s = g ++ r /\ Forall blank g.
Proof.
  induction 1 as [l s W|l n c s r l' B G IH|l n s r l' B G IH]; intros E.
  - exists []. split; [reflexivity|constructor].
  - destruct (IH E) as (g & -> & F). exists (c :: g). split; [reflexivity|constructor; assumption].
  - discriminate.
Qed.
Lemma gap_line l n s r l' : gap l n s r l' -> n = 0 -> l = false -> l' = false.
Proof. induction 1; intros; [assumption|auto|discriminate]. Qed.
Lemma gap_first l n s r l' : gap l n s r l' -> break_len s <> 0 -> n <> 0.
Proof.
  intros [l0 s0 W|l0 n0 c s0 r0 l0' B G|l0 n0 s0 r0 l0' B G] K; [|exfalso|discriminate].
  - intros _. apply W. right. exact K.
  - apply K. destruct B as [-> | ->]; destruct s0 as [|a [|b s0]]; reflexivity.
Qed.
Lemma no_wide_suffix g s : no_wide_escape (g ++ s) -> no_wide_escape s.
Proof. intros H a b ->. apply (H (g ++ a) b). rewrite <- app_assoc. reflexivity. Qed.

Lemma valid_tail a b : valid a -> valid (a ++ b) -> valid b.
Proof.
  intros V W. destruct b as [|x b]; [reflexivity|].
  rewrite <- (skipn_app_exact a (x :: b)). apply valid_skipn; [exact W|].
  apply boundary_app. revert V W. unfold valid. rewrite !valid_iff. intros (p & F & ->).
  clear - F. induction F as [|v p V F IH].
  - cbn. intros W. change (head_ok (x :: b)). apply valid_head, valid_iff, W.
  - cbn [flat_map]. rewrite <- app_assoc. intros (q & G & E). apply IH.
    destruct G as [|w q W G].
    { destruct (encode_nonempty v) as (c & t & K). rewrite K in E. discriminate. }
    exists q. split; [exact G|]. cbn [flat_map] in E.
    assert (L := f_equal utf8_char E). rewrite (char_encode v), (char_encode w) in L by assumption.
    apply (f_equal (skipn (List.length (encode v)))) in E. rewrite skipn_app_exact in E.
    rewrite L, skipn_app_exact in E. exact E.
Qed.
Lemma encode_scalar c x : (c < 2097152)%N -> valid (encode c ++ x) -> scalar_value c.
Proof.
  intros C V. destruct (valid_cons (encode c ++ x) V) as (w & r & W & E & _ & U).
  { destruct (encode_nonempty c) as (b & t & ->). discriminate. }
  assert (U0 : utf8_char (encode c ++ x) <> 0).
  { rewrite U. destruct (encode_nonempty w) as (b & t & ->). discriminate. }
  clear - U0 C. unfold scalar_value.
  destruct (N.le_gt_cases c 1114111) as [L|G]; [|exfalso; apply U0].
  - split; [exact L|]. intros S. apply U0. unfold encode.
    replace (c <? 128)%N with false by lia. replace (c <? 2048)%N with false by lia.
    replace (c <? 65536)%N with true by lia.
    assert (A : (c / 4096 = 13)%N) by lia.
    assert (B : (32 <= c / 64 mod 64 < 64)%N) by lia.
    assert (A' : (224 + c / 4096 = 237)%N) by lia. rewrite A'.
    assert (B' : (159 < 128 + c / 64 mod 64)%N) by lia.
    remember (128 + c / 64 mod 64)%N as y eqn:EY. clear - B'.
    cbn [app utf8_char]. change (237 <? 128)%N with false. change (rng 194 223 237) with false.
    change (rng 224 239 237) with true. change (237 =? 224)%N with false. change (237 =? 237)%N with true.
    unfold rng. replace (y <=? 159)%N with false by lia. rewrite andb_false_r. reflexivity.
  - unfold encode.
    replace (c <? 128)%N with false by lia. replace (c <? 2048)%N with false by lia.
    replace (c <? 65536)%N with false by lia. cbn [app]. unfold utf8_char.
    assert (A : (4 <= c / 262144)%N) by lia.
    replace (240 + c / 262144 <? 128)%N with false by lia.
    unfold rng. replace (240 + c / 262144 <=? 223)%N with false by lia.
    replace (240 + c / 262144 <=? 239)%N with false by lia.
    rewrite !andb_false_r. destruct (N.eq_dec (c / 262144) 4) as [Q|Q].
    + rewrite Q. change (240 + 4)%N with 244%N. change ((240 <=? 244)%N && (244 <=? 244)%N) with true.
      change (244 =? 240)%N with false. change (244 =? 244)%N with true.
      assert (B : (143 < 128 + c / 4096 mod 64)%N) by lia. remember (128 + c / 4096 mod 64)%N as y eqn:EY.
      replace (y <=? 143)%N with false by lia. rewrite andb_false_r. reflexivity.
    + replace (240 + c / 262144 <=? 244)%N with false by lia. rewrite andb_false_r. reflexivity.
Qed.

Lemma denotes_narrow e c s : denotes e c -> no_wide_escape (e ++ s) -> (c < 2097152)%N.
Proof.
  intros [x v IN|x n ds IN L F] NW.
  - destruct (encode_table _ _ IN) as [[A _] _]. lia.
  - cbn in IN. destruct IN as [IN|[IN|[IN|[]]]]; injection IN as <- <-.
    + pose proof (hex_from_lt ds 0 1 F ltac:(lia)) as X. rewrite L in X.
      change (1 * 16 ^ N.of_nat 2)%N with 256%N in X. unfold hex_number. unfold hex_from in X. lia.
    + pose proof (hex_from_lt ds 0 1 F ltac:(lia)) as X. rewrite L in X.
      change (1 * 16 ^ N.of_nat 4)%N with 65536%N in X. unfold hex_number. unfold hex_from in X. lia.
    + destruct (NW [] (ds ++ s) eq_refl) as (d & r & E & D).
      destruct ds as [|h1 [|h2 [|h3 ds]]]; try discriminate.
      cbn [app] in E. injection E as -> -> -> _. cbn in L. injection L as L.
      inversion F as [|? ? _ F1]; subst. inversion F1 as [|? ? _ F2]; subst. inversion F2 as [|? ? _ F3]; subst.
      unfold hex_number. cbn [fold_left].
      assert (Z : (16 * (16 * (16 * 0 + digit_value 48) + digit_value 48) + digit_value d < 2)%N)
        by (destruct D as [-> | ->]; cbv; reflexivity).
      pose proof (hex_from_lt ds _ 2 F3 Z) as X. rewrite L in X.
      change (2 * 16 ^ N.of_nat 5)%N with 2097152%N in X. unfold hex_from in X. exact X.
Qed.

Lemma scalar_ascii c : (c < 128)%N -> scalar_value c.
Proof. unfold scalar_value. lia. Qed.
Lemma raw_quoted single s v r : qraw single s v r -> (single = false -> no_wide_escape s) ->
  forall a, valid a -> valid (a ++ v) -> quoted single s v r.
Proof.
  assert (VA : forall a x, valid a -> ascii x -> valid (a ++ x)).
  { intros a x A X. apply valid_app; [exact A|apply valid_ascii, X]. }
  induction 1 as [r C|c s v r C W Q ES H IH|s v r S1 H IH|e c s v r S1 D H IH|g s v r G0 G H IH
                 |n s s' v r l G DM H IH|n s s' v r l S1 B G DM H IH]; intros NW a A V.
  - apply q_close, C.
  - assert (quoted single s v r).
    { apply (IH (fun S => no_wide_suffix [c] s (NW S)) (a ++ [c])); [apply VA; repeat constructor; auto|].
      rewrite <- app_assoc. exact V. }
    pose proof (q_char single c s v r (scalar_ascii c C)) as K.
    rewrite (enc1 c C) in K. apply K; auto.
  - apply q_pair; [exact S1|].
    apply (IH (fun S => no_wide_suffix [39; 39]%N s (NW S)) (a ++ [39%N])); [apply VA; repeat constructor; auto|].
    rewrite <- app_assoc. exact V.
  - assert (N := denotes_narrow _ _ _ D (NW S1)). rewrite (encode_point_ok c N) in *.
    assert (SV : scalar_value c).
    { apply (encode_scalar c v N). apply (valid_tail a); assumption. }
    apply (q_escape single e c s v r S1 D SV).
    apply (IH (fun S => no_wide_suffix e s (NW S)) (a ++ encode c)).
    + apply valid_app; [exact A|]. apply valid_iff. exists [c]. split; [constructor; auto|].
      cbn. rewrite app_nil_r. reflexivity.
    + rewrite <- app_assoc. exact V.
  - apply q_blanks; [exact G0|exact G|].
    apply (IH (fun S => no_wide_suffix g s (NW S)) (a ++ g)); [|rewrite <- app_assoc; exact V].
    apply VA; [exact A|]. destruct (gap_zero _ _ _ _ _ G eq_refl) as (g' & E & F).
    apply app_inv_tail in E as ->. eapply Forall_impl; [|exact F]. unfold blank. cbn. lia.
  - apply (q_fold single n s s' v r l G DM). destruct (gap_suffix _ _ _ _ _ G) as (g & ->).
    apply (IH (fun S => no_wide_suffix g s' (NW S)) (a ++ folded (S n))); [|rewrite <- app_assoc; exact V].
    apply VA; [exact A|]. destruct n; [repeat constructor|apply ascii_repeat; reflexivity].
  - apply (q_join single n s s' v r l S1 B G DM). destruct (gap_suffix _ _ _ _ _ G) as (g & ->).
    apply (IH (fun S => no_wide_suffix (92%N :: g) s' (NW S)) (a ++ repeat 10%N n)); [|rewrite <- app_assoc; exact V].
    apply VA; [exact A|]. apply ascii_repeat; reflexivity.
Qed.

(** ** Soundness *)
Section Sound.
  Variables (o : flags) (base : str) (single : bool).
  Hypothesis VB : valid base.
  Notation txt := (txt base).
  Notation inside := (inside base).

  Lemma inside_valid s : inside s -> valid (f_buf s).
  Proof. intros (k & K & E & B & _). rewrite E. apply valid_skipn; assumption. Qed.
  Lemma ascii_head c s : valid (c :: s) -> is_boundary (c :: s) 1 = true -> (c < 128)%N.
  Proof.
    intros V B. destruct (valid_first _ V ltac:(discriminate)) as (b & t & r & E & VR & W & H & F).
    assert (b = c) as -> by congruence. assert (s = t ++ r) as -> by congruence. clear E.
    destruct t as [|y t].
    - unfold width_byte in W. destruct (c <? 128)%N eqn:L; [lia|].
      destruct (rng 192 223 c); [discriminate|]. destruct (rng 224 239 c); [discriminate|].
      destruct (rng 240 247 c); discriminate.
    - inversion F as [|? ? Y _]; subst. cbn in B. rewrite Y in B. discriminate.
  Qed.

  (** What the rest of a word contributes, given what follows it. *)
  Definition extends (s : str) (w : str) (s' : str) (esc : esc_state) : Prop :=
    forall v r, qraw single (match esc with EStart => 92%N :: s' | _ => s' end) v r -> qraw single s (w ++ v) r.

  Lemma word_sound p q : runs (flow_word_body o base single) p q ->
    forall s esc s' esc' closed, p = (s, esc) -> q = (s', esc', closed) -> inside s ->
    esc <> EStarted -> (esc = EStart -> is_break (f_buf s) = true /\ single = false) ->
    inside s' /\ exists w, txt s' = txt s ++ w /\
      (if closed then exists r, f_buf s' = (if single then 39 else 34)%N :: r /\
                                ~ (single = true /\ exists r', r = 39%N :: r')
       else is_wsZ (f_buf s') = true) /\
      esc' <> EStarted /\
      (esc' = EStart -> is_break (f_buf s') = true /\ single = false /\ closed = false) /\
      (esc = EStart -> s' = s /\ esc' = EStart /\ w = []) /\
      (esc = ENone -> extends (f_buf s) w (f_buf s') esc').
  Proof.
    induction 1 as [p q B|p p' q B R IH]; intros s esc s' esc' closed -> -> IN ES EB.
    - unfold flow_word_body in B. destruct (is_wsZ (f_buf s)) eqn:W.
      + assert (s' = s) as -> by congruence. assert (esc' = esc) as -> by congruence.
        assert (closed = false) as -> by congruence. split; [exact IN|]. exists []. rewrite app_nil_r.
        split; [reflexivity|]. split; [exact W|]. split; [exact ES|].
        split; [intros E; destruct (EB E); auto|]. split; [auto|].
        intros ->. intros v r Q. exact Q.
      + apply bind_inv in B as (u & _ & B).
        assert (NW : esc <> EStart).
        { intros E. destruct (EB E) as [Y _]. unfold is_wsZ in W. rewrite Y, orb_true_r in W. discriminate. }
        destruct (single && at_is (f_buf s) 0 39 && at_is (f_buf s) 1 39) eqn:P2.
        { apply bind_inv in B as (s1 & _ & B). apply bind_inv in B as (s2 & _ & B). discriminate. }
        destruct (single && at_is (f_buf s) 0 39 || negb single && at_is (f_buf s) 0 34) eqn:CL.
        2: { destruct (negb single && at_is (f_buf s) 0 92 && is_break (skipn 1 (f_buf s))).
             { apply bind_inv in B as (s1 & _ & B). apply bind_inv in B as (s2 & _ & B). discriminate. }
             destruct (negb single && at_is (f_buf s) 0 92).
             { apply bind_inv in B as (s1 & _ & B). apply bind_inv in B as ([w n] & _ & B).
               apply bind_inv in B as (s2 & _ & B). discriminate. }
             apply bind_inv in B as (s2 & _ & B). discriminate. }
        assert (s' = s) as -> by congruence. assert (esc' = esc) as -> by congruence.
        assert (closed = true) as -> by congruence. split; [exact IN|]. exists []. rewrite app_nil_r.
        split; [reflexivity|]. split; [|split; [exact ES|split; [intros E; destruct (NW E)|split; [intros E; destruct (NW E)|]]]].
        2: { intros ->. intros v r Q. exact Q. }
        assert (H : at_is (f_buf s) 0 (if single then 39 else 34)%N = true).
        { destruct single; cbn in CL; rewrite ?orb_false_r in CL; exact CL. }
        destruct (at_is_cons _ _ H) as (r & E). exists r. split; [exact E|]. intros (S1 & r' & ->).
        rewrite E, S1 in P2. discriminate.
    - unfold flow_word_body in B. destruct (is_wsZ (f_buf s)) eqn:W; [discriminate|].
      apply bind_inv in B as (u & _ & B).
      assert (NW : esc = ENone).
      { destruct esc; [reflexivity| |congruence]. destruct (EB eq_refl) as [Y _].
        unfold is_wsZ in W. rewrite Y, orb_true_r in W. discriminate. }
      subst esc.
      assert (WH : ~ white (f_buf s)).
      { apply not_white. rewrite wsZ_ws in W. apply orb_false_iff in W. tauto. }
      assert (NE : f_buf s <> []) by (intros E; rewrite E in W; discriminate).
      destruct (single && at_is (f_buf s) 0 39 && at_is (f_buf s) 1 39) eqn:P2.
      { apply andb_true_iff in P2 as [P2 P1]. apply andb_true_iff in P2 as [S1 P2].
        apply bind_inv in B as (s1 & N1 & B). apply bind_inv in B as (s2 & A2 & B).
        apply no_borrow_inv in N1 as (I1 & E1 & ST1 & B1 & T1); [|exact IN].
        destruct (push_inv base s1 [39%N] I1 B1) as [IP TP].
        apply adv_inv with (base := base) in A2 as (I2 & E2 & _ & _ & _ & _ & T2); [|exact IP].
        cbn [f_push f_bor f_buf] in T2, E2. rewrite B1 in T2.
        assert (p' = (s2, ENone)) as -> by congruence.
        destruct (IH s2 ENone s' esc' closed eq_refl eq_refl I2) as (I' & w & T & C & X1 & X2 & _ & X3);
          [discriminate|discriminate|].
        split; [exact I'|]. exists (39%N :: w). split; [rewrite T, T2, TP, T1, <- app_assoc; reflexivity|].
        split; [exact C|]. split; [exact X1|]. split; [exact X2|]. split; [discriminate|].
        intros _ v r Q. assert (f_buf s = 39%N :: 39%N :: f_buf s2) as ->.
        { rewrite E2, E1. apply at_is_nth in P1. destruct (at_is_cons _ _ P2) as (t & Y). rewrite Y in *.
          destruct t as [|y t]; [discriminate|]. cbn in P1. assert (y = 39%N) as -> by congruence. reflexivity. }
        cbn [app]. apply r_pair; [exact S1|]. apply X3; auto. }
      destruct (single && at_is (f_buf s) 0 39 || negb single && at_is (f_buf s) 0 34) eqn:CL; [discriminate|].
      destruct (negb single && at_is (f_buf s) 0 92 && is_break (skipn 1 (f_buf s))) eqn:P3.
      { apply andb_true_iff in P3 as [P3 P4]. apply andb_true_iff in P3 as [S1 P3].
        apply negb_true_iff in S1.
        apply bind_inv in B as (s1 & N1 & B). apply bind_inv in B as (s2 & A2 & B).
        apply no_borrow_inv in N1 as (I1 & E1 & ST1 & B1 & T1); [|exact IN].
        apply adv_inv with (base := base) in A2 as (I2 & E2 & _ & _ & _ & _ & T2); [|exact I1].
        rewrite B1 in T2. assert (p' = (s2, EStart)) as -> by congruence.
        rewrite E1 in E2. rewrite <- E2 in P4.
        destruct (IH s2 EStart s' esc' closed eq_refl eq_refl I2) as (I' & w & T & C & X1 & X2 & X4 & X3);
          [discriminate|auto|]. destruct (X4 eq_refl) as (-> & -> & ->).
        split; [exact I'|]. exists []. split; [rewrite app_nil_r; congruence|].
        split; [exact C|]. split; [exact X1|]. split; [exact X2|]. split; [discriminate|].
        intros _ v r Q. assert (f_buf s = 92%N :: f_buf s2) as ->; [|exact Q].
        rewrite E2. destruct (at_is_cons _ _ P3) as (t & ->). reflexivity. }
      destruct (negb single && at_is (f_buf s) 0 92) eqn:P5.
      { apply andb_true_iff in P5 as [S1 P5]. apply negb_true_iff in S1.
        apply bind_inv in B as (s1 & N1 & B). apply bind_inv in B as ([we n] & UE & B).
        apply bind_inv in B as (s2 & A2 & B).
        apply no_borrow_inv in N1 as (I1 & E1 & ST1 & B1 & T1); [|exact IN].
        destruct (push_inv base s1 we I1 B1) as [IP TP].
        apply adv_inv with (base := base) in A2 as (I2 & E2 & _ & _ & _ & _ & T2); [|exact IP].
        cbn [f_push f_bor f_buf] in T2, E2. rewrite B1 in T2.
        assert (p' = (s2, ENone)) as -> by congruence.
        destruct (IH s2 ENone s' esc' closed eq_refl eq_refl I2) as (I' & w & T & C & X1 & X2 & _ & X3);
          [discriminate|discriminate|].
        rewrite E1 in UE, E2. apply unescape_denotes in UE as (e & c & EE & _ & D & ->); [|exact P5].
        split; [exact I'|]. exists (encode_point c ++ w). split; [rewrite T, T2, TP, T1, <- app_assoc; reflexivity|].
        split; [exact C|]. split; [exact X1|]. split; [exact X2|]. split; [discriminate|].
        intros _ v r Q. rewrite EE, <- E2, <- app_assoc. apply r_escape; [exact S1|exact D|].
        apply X3; auto. }
      { apply bind_inv in B as (s2 & A2 & B).
        apply adv_head_inv with (base := base) in A2 as (I2 & E2 & _ & BD & T2); [|exact IN].
        assert (p' = (s2, ENone)) as -> by congruence.
        destruct (IH s2 ENone s' esc' closed eq_refl eq_refl I2) as (I' & w & T & C & X1 & X2 & _ & X3);
          [discriminate|discriminate|].
        assert (VS := inside_valid _ IN).
        destruct (f_buf s) as [|c t] eqn:E; [congruence|]. cbn [skipn firstn] in *.
        assert (CA := ascii_head c t VS BD).
        split; [exact I'|]. exists (c :: w). split; [rewrite T, T2, <- app_assoc; reflexivity|].
        split; [exact C|]. split; [exact X1|]. split; [exact X2|]. split; [discriminate|].
        intros _ v r Q. cbn [app]. apply r_char; [exact CA|exact WH| | |].
        - intros ->. destruct single; cbn in CL; discriminate.
        - intros S1 ->. rewrite S1 in P5. discriminate.
        - rewrite <- E2. apply X3; auto. }
  Qed.

  Lemma ws_sound p q : runs (flow_ws_body o base) p q ->
    forall s esc ws lines s' esc' ws' lines' T bl (l : bool),
    p = (s, esc, ws, lines) -> q = (s', esc', ws', lines') -> inside s ->
    txt s = T ++ bl -> List.length bl = ws -> (esc = EStart -> is_break (f_buf s) = true /\ ws = 0) ->
    (l = true -> scol (f_st s) = 0) ->
    inside s' /\ exists n l' bl', gap l n (f_buf s) (f_buf s') l' /\ lines' = lines + n /\
      txt s' = T ++ bl' /\ List.length bl' = ws' /\ (l' = true -> scol (f_st s') = 0) /\
      (n = 0 -> exists g, f_buf s = g ++ f_buf s' /\ bl' = bl ++ g) /\
      (esc = ENone -> esc' = ENone) /\ (esc <> ENone -> esc' <> ENone).
  Proof.
    induction 1 as [p q B|p p' q B R IH]; intros s esc ws lines s' esc' ws' lines' T bl l -> -> IN TX LB ES LC.
    - unfold flow_ws_body in B. apply bind_inv in B as (u & _ & B).
      destruct (is_blank (f_buf s)) eqn:BL; [apply bind_inv in B as (s1 & _ & B); discriminate|].
      destruct (is_break (f_buf s)) eqn:BR.
      { apply bind_inv in B as (s1 & _ & B). destruct esc; apply bind_inv in B as (s2 & _ & B); discriminate. }
      assert (s' = s) as -> by congruence. assert (esc' = esc) as -> by congruence.
      assert (ws' = ws) as -> by congruence. assert (lines' = lines) as -> by congruence.
      split; [exact IN|]. exists 0, l, bl. split; [apply gap_end, not_white; unfold is_ws; rewrite BL, BR; reflexivity|].
      rewrite Nat.add_0_r. repeat split; auto. intros _. exists []. rewrite app_nil_r. auto.
    - unfold flow_ws_body in B. apply bind_inv in B as (u & _ & B).
      destruct (is_blank (f_buf s)) eqn:BL.
      { apply bind_inv in B as (s1 & A1 & B).
        apply adv_head_inv with (base := base) in A1 as (I1 & E1 & ST1 & BD & T1); [|exact IN].
        apply is_blank_iff in BL as (c & t & E & BC). rewrite E in *. cbn [skipn firstn] in *.
        assert (p' = (s1, esc, S ws, lines)) as -> by congruence.
        assert (NES : esc <> EStart).
        { intros X. destruct (ES X) as [Y _].
          rewrite is_blank_not_break in Y; [discriminate|]. apply is_blank_iff. eauto. }
        destruct (IH s1 esc (S ws) lines s' esc' ws' lines' T (bl ++ [c]) false eq_refl eq_refl I1)
          as (I' & n & l' & bl' & G & L & TT & LL & LC' & G0 & X1 & X2).
        - rewrite T1, TX, app_assoc. reflexivity.
        - rewrite app_length. cbn. lia.
        - congruence.
        - discriminate.
        - split; [exact I'|]. exists n, l', bl'. rewrite E1 in G. split; [apply gap_blank; assumption|].
          repeat split; auto. intros N0. destruct (G0 N0) as (g & EG & ->). exists (c :: g).
          rewrite E1 in EG. cbn [app]. split; [congruence|]. rewrite <- app_assoc. reflexivity. }
      destruct (is_break (f_buf s)) eqn:BR; [|discriminate].
      apply bind_inv in B as (s1 & N1 & B).
      apply no_borrow_inv in N1 as (I1 & E1 & ST1 & B1 & T1); [|exact IN].
      assert (exists esc1,
        (exists s2, f_adv_line s1 = Ok s2 /\ p' = (s2, esc1, ws, S lines)) /\
        (esc = ENone -> esc1 = ENone) /\ (esc <> ENone -> esc1 = EStarted)) as (esc1 & (s2 & A2 & ->) & Z1 & Z2).
      { destruct esc; apply bind_inv in B as (s2 & A2 & B).
        - exists ENone. split; [exists s2; split; [exact A2|congruence]|]. split; congruence.
        - exists EStarted. destruct (ES eq_refl) as [_ W0].
          split; [exists s2; split; [exact A2|congruence]|]. split; congruence.
        - exists EStarted. split; [exists s2; split; [exact A2|congruence]|]. split; congruence. }
      apply adv_line_inv with (base := base) in A2 as (I2 & E2 & ST2 & B2 & _ & T2); [|exact I1].
      destruct (IH s2 esc1 ws (S lines) s' esc' ws' lines' T bl true eq_refl eq_refl I2)
        as (I' & n & l' & bl' & G & L & TT & LL & LC' & G0 & X1 & X2).
      + rewrite T2, T1 by exact B1. exact TX.
      + exact LB.
      + intros ->. exfalso. destruct esc; [specialize (Z1 eq_refl)|specialize (Z2 ltac:(discriminate))|specialize (Z2 ltac:(discriminate))]; discriminate.
      + intros _. rewrite ST2. reflexivity.
      + split; [exact I'|]. exists (S n), l', bl'. rewrite E1 in E2. rewrite E2 in G.
        split; [apply gap_break; [apply is_break_iff, BR|rewrite break_len_amt; exact G]|].
        split; [lia|]. split; [exact TT|]. split; [exact LL|]. split; [exact LC'|].
        split; [discriminate|]. split.
        * intros E. apply X1, Z1, E.
        * intros E. apply X2. rewrite (Z2 E). discriminate.
  Qed.
  Definition marked (s : fstate) : bool := is_doc_indicator (f_buf s) (scol (f_st s)).

  (** A round that goes on, and one that ends. *)
  Lemma body_next s s' : inside s -> flow_body o base single s = Ok (Next s') ->
    marked s = false /\ inside s' /\ exists w, txt s' = txt s ++ w /\
    (marked s' = false -> forall v r, qraw single (f_buf s') v r -> qraw single (f_buf s) (w ++ v) r).
  Proof.
    intros IN B. unfold flow_body in B. apply bind_inv in B as (u & _ & B). fold (marked s) in B.
    destruct (marked s) eqn:M; [discriminate|]. destruct (is_empty (f_buf s)) eqn:EM; [discriminate|].
    apply bind_inv in B as (u' & _ & B). apply bind_inv in B as ([[s1 esc1] closed] & LW & B).
    destruct closed; [discriminate|]. apply bind_inv in B as ([[[s2 esc2] ws] lines] & LS & B).
    apply bind_inv in B as (s3 & J & B). assert (s' = s3) as -> by congruence.
    unfold flow_word in LW. apply loop_runs in LW. unfold flow_ws in LS. apply loop_runs in LS.
    destruct (word_sound _ _ LW s ENone s1 esc1 false eq_refl eq_refl IN) as (I1 & w & T1 & W1 & X1 & X2 & _ & X3);
      [discriminate|discriminate|].
    destruct (ws_sound _ _ LS s1 esc1 0 0 s2 esc2 ws lines (txt s1) [] false eq_refl eq_refl I1)
      as (I2 & n & l' & bl & G & L & T2 & LB & LC & G0 & Y1 & Y2);
      [rewrite app_nil_r; reflexivity|reflexivity|intros E; destruct (X2 E); auto|discriminate|].
    cbn in L. subst lines. split; [reflexivity|]. unfold flow_join in J. destruct n as [|n].
    - assert (s3 = s2) as -> by congruence. split; [exact I2|].
      destruct (G0 eq_refl) as (g & EG & E). cbn [app] in E. subst bl.
      exists (w ++ g). split; [rewrite T2, T1, app_assoc; reflexivity|].
      intros _ v r Q. rewrite <- app_assoc. apply X3; [reflexivity|].
      destruct esc1; [|exfalso|congruence].
      + destruct g as [|c g]; [cbn [app] in *; rewrite EG; exact Q|].
        rewrite EG in *. apply r_blanks; [discriminate| |exact Q].
        assert (l' = false) as ->; [|exact G].
        apply (gap_line _ _ _ _ _ G); reflexivity.
      + destruct (X2 eq_refl) as [BR _]. apply is_break_iff in BR. exact (gap_first _ _ _ _ _ G BR eq_refl).
    - apply bind_inv in J as (s4 & N4 & J). apply bind_inv in J as (scr & CH & J).
      apply no_borrow_inv in N4 as (I4 & E4 & ST4 & B4 & T4); [|exact I2].
      unfold chop in CH. destruct (Nat.leb ws (List.length (f_scr s4))) eqn:LE; [|discriminate].
      assert (scr = txt s1) as ->.
      { assert (f_scr s4 = txt s1 ++ bl) as E.
        { transitivity (txt s4); [unfold QuotedFacts.txt; rewrite B4; reflexivity|]. congruence. }
        rewrite E in CH. rewrite app_length, LB in CH.
        replace (List.length (txt s1) + ws - ws) with (List.length (txt s1)) in CH by lia.
        rewrite firstn_app_exact in CH. congruence. }
      set (s5 := mkF (f_buf s4) (f_st s4) (txt s1) (f_bor s4)) in *.
      assert (I5 : inside s5 /\ txt s5 = txt s1).
      { unfold s5, QuotedFacts.txt, QuotedFacts.inside. cbn [f_bor f_scr f_buf]. rewrite B4. split; [|reflexivity].
        destruct I4 as (k & K & E & BD & _). exists k. repeat split; try lia; auto; discriminate. }
      destruct I5 as [I5 T5].
      assert (exists t, s3 = f_push s5 t /\ (esc1 = ENone -> t = folded (S n)) /\
                        (esc1 = EStart -> t = repeat 10%N n)) as (t & -> & F1 & F2).
      { destruct n as [|n].
        - destruct esc1; [|exists []|congruence].
          + rewrite (Y1 eq_refl) in J. exists [32%N]. split; [congruence|]. split; [reflexivity|discriminate].
          + specialize (Y2 ltac:(discriminate)). split; [|split; [discriminate|reflexivity]].
            assert (s3 = s5) as -> by (destruct esc2; congruence). unfold f_push.
            rewrite app_nil_r. destruct s5; reflexivity.
        - exists (repeat 10%N (S n)). split; [congruence|]. split; reflexivity. }
      destruct (push_inv base s5 t I5 B4) as [IP TP]. split; [exact IP|]. exists (w ++ t).
      split; [rewrite TP, T5, T1, app_assoc; reflexivity|].
      intros M' v r Q. rewrite <- app_assoc. apply X3; [reflexivity|].
      assert (DM : l' = true -> ~ document_marker (f_buf s2)).
      { intros E. specialize (LC E). unfold marked in M'. cbn [f_push f_buf f_st] in M'. unfold s5 in M'.
        cbn [f_buf f_st] in M'. rewrite E4, ST4, LC in M'. rewrite <- document_marker_iff. congruence. }
      cbn [f_push f_buf] in Q. unfold s5 in Q. cbn [f_buf] in Q. rewrite E4 in Q.
      destruct esc1; [| |congruence].
      + rewrite (F1 eq_refl). apply (r_fold single n (f_buf s1) (f_buf s2) v r l' G DM Q).
      + rewrite (F2 eq_refl). destruct (X2 eq_refl) as (BR & S1 & _).
        apply (r_join single n (f_buf s1) (f_buf s2) v r l' S1); [apply is_break_iff, BR|exact G|exact DM|exact Q].
  Qed.
  Lemma body_done s s' : inside s -> flow_body o base single s = Ok (Done s') ->
    marked s = false /\ inside s' /\ exists w r, txt s' = txt s ++ w /\
    f_buf s' = (if single then 39 else 34)%N :: r /\ qraw single (f_buf s) w r.
  Proof.
    intros IN B. unfold flow_body in B. apply bind_inv in B as (u & _ & B). fold (marked s) in B.
    destruct (marked s) eqn:M; [discriminate|]. destruct (is_empty (f_buf s)) eqn:EM; [discriminate|].
    apply bind_inv in B as (u' & _ & B). apply bind_inv in B as ([[s1 esc1] closed] & LW & B).
    destruct closed.
    2: { apply bind_inv in B as ([[[s2 esc2] ws] lines] & LS & B). apply bind_inv in B as (s3 & J & B). discriminate. }
    assert (s' = s1) as -> by congruence. unfold flow_word in LW. apply loop_runs in LW.
    destruct (word_sound _ _ LW s ENone s1 esc1 true eq_refl eq_refl IN) as (I1 & w & T1 & (r & E & C) & X1 & X2 & _ & X3);
      [discriminate|discriminate|].
    split; [reflexivity|]. split; [exact I1|]. exists w, r. split; [exact T1|]. split; [exact E|].
    rewrite <- (app_nil_r w). apply X3; [reflexivity|].
    destruct esc1; [|destruct (X2 eq_refl) as (_ & _ & X); discriminate|congruence].
    rewrite E. apply r_close, C.
  Qed.
  Lemma flow_sound s s' : runs (flow_body o base single) s s' -> inside s ->
    marked s = false /\ inside s' /\ exists w r, txt s' = txt s ++ w /\
    f_buf s' = (if single then 39 else 34)%N :: r /\ qraw single (f_buf s) w r.
  Proof.
    induction 1 as [s s' B|s s1 s' B R IH]; intros IN; [apply body_done; assumption|].
    apply body_next in B as (M & I1 & w & T & K); [|exact IN].
    destruct (IH I1) as (M1 & I' & w' & r & T' & E & Q).
    split; [exact M|]. split; [exact I'|]. exists (w ++ w'), r.
    split; [rewrite T', T, app_assoc; reflexivity|]. split; [exact E|]. apply K; assumption.
  Qed.
End Sound.

Lemma valid_firstn_len n : forall s k, List.length s <= n -> valid s -> is_boundary s k = true -> valid (firstn k s).
Proof.
  induction n as [|n IH]; intros s k L V B.
  { destruct s; [destruct k; reflexivity|cbn in L; lia]. }
  destruct k as [|k]; [reflexivity|]. destruct s as [|x s]; [reflexivity|].
  destruct (valid_first _ V ltac:(discriminate)) as (b & c & r & E & VR & W & H & F).
  assert (x = b) as -> by congruence. assert (s = c ++ r) as -> by congruence. clear E.
  assert (VC : valid (b :: c)).
  { assert (K : skipn (S (List.length c)) (b :: c ++ r) = r) by (cbn; apply skipn_app_exact).
    destruct (valid_cons _ V ltac:(discriminate)) as (v & r' & SV & E & VR' & _).
    destruct (encode_nonempty v) as (b' & c' & EV). destruct (encode_octets v b' c' SV EV) as (OL & F' & BB).
    rewrite EV in E. cbn [app] in E. assert (b' = b) as -> by congruence.
    assert (c ++ r = c' ++ r') as E' by congruence.
    assert (List.length c = List.length c').
    { rewrite octet_len_spec in OL by exact BB. unfold width_byte, rng in *.
      destruct (b <? 128)%N; [congruence|]. destruct ((192 <=? b)%N && (b <=? 223)%N); [congruence|].
      destruct ((224 <=? b)%N && (b <=? 239)%N); [congruence|].
      destruct ((240 <=? b)%N && (b <=? 247)%N); congruence. }
    assert (c = c') as ->.
    { apply (f_equal (firstn (List.length c))) in E'. rewrite firstn_app_exact, H0, firstn_app_exact in E'. exact E'. }
    rewrite <- EV. apply valid_iff. exists [v]. split; [constructor; auto|]. cbn. rewrite app_nil_r. reflexivity. }
  destruct (Nat.lt_ge_cases k (List.length c)) as [K|K].
  - exfalso. unfold is_boundary in B. cbn [nth_error] in B.
    rewrite nth_error_app1 in B by lia.
    destruct (nth_error c k) as [y|] eqn:Y; [|apply nth_error_None in Y; lia].
    apply nth_error_In in Y. rewrite Forall_forall in F. rewrite (F _ Y) in B. discriminate.
  - cbn [firstn]. rewrite firstn_app, firstn_all2 by lia. apply (valid_app (b :: c)); [exact VC|].
    apply IH; [cbn in L; rewrite app_length in L; lia|exact VR|].
    unfold is_boundary in *. cbn [nth_error] in B. rewrite nth_error_app2 in B by lia.
    destruct (k - List.length c) as [|j] eqn:J; [reflexivity|].
    destruct (nth_error r (S j)); [exact B|]. cbn [List.length] in B. rewrite app_length in B. lia.
Qed.
Lemma valid_firstn s k : valid s -> is_boundary s k = true -> valid (firstn k s).
Proof. apply (valid_firstn_len (List.length s)). lia. Qed.
Lemma valid_slice {E} s a b t : valid s -> slice (E := E) s a b = Ok t -> valid t.
Proof.
  unfold slice. intros V. destruct (Nat.leb a b && is_boundary s a && is_boundary s b) eqn:C; [|discriminate].
  apply andb_true_iff in C as [C B2]. apply andb_true_iff in C as [L B1]. apply Nat.leb_le in L.
  intros X. assert (t = firstn (b - a) (skipn a s)) as -> by congruence.
  apply valid_firstn; [apply valid_skipn; assumption|].
  unfold is_boundary in *. destruct (b - a) as [|d] eqn:D; [reflexivity|].
  rewrite nth_error_skipn. replace (a + S d) with b by lia. destruct b as [|b]; [lia|].
  destruct (nth_error s (S b)) as [y|] eqn:Y; [exact B2|].
  apply Nat.eqb_eq in B2. rewrite skipn_length. apply Nat.eqb_eq. lia.
Qed.

(** What an eager scalar is. *)
Lemma eager_sound o base st single tok n st' : valid base ->
  at_is base 0 (if single : bool then 39 else 34)%N = true ->
  scan_flow_scalar_eager o base st single = Ok (tok, n, st') ->
  exists s c r, base = (if single then 39 else 34)%N :: s /\
    tok = TScalar c (if single then SingleQuote else DoubleQuote) /\ valid (cow_str c) /\
    ((single = false -> no_wide_escape base) -> quoted single s (cow_str c) r) /\
    skipn n base = r /\ n <= List.length base /\
    (forall x, c = Borrowed x -> base = (if single then 39 else 34)%N :: x ++ (if single then 39 else 34)%N :: r).
Proof.
  intros VB H X. destruct (at_is_cons _ _ H) as (s & E). unfold scan_flow_scalar_eager in X.
  apply bind_inv in X as (u & _ & X). apply bind_inv in X as (s0 & A0 & X).
  apply bind_inv in X as (sf & LP & X). apply bind_inv in X as (text & TX & X).
  apply bind_inv in X as (u' & _ & X). apply bind_inv in X as (s1 & A1 & X).
  apply loop_runs in LP.
  assert (I0 : inside base s0 /\ f_buf s0 = s /\ txt base s0 = []).
  { unfold f_adv in A0. apply bind_inv in A0 as ([b' st''] & A & A0). cbn [f_buf f_st f_scr f_bor] in *.
    apply adv_ok in A as (-> & -> & B'). assert (s0 = mkF (skipn 1 base) (supd st 1 0 1) [] true) as -> by congruence.
    cbn [f_buf]. split; [|split; [rewrite E; reflexivity|]].
    - exists 1. cbn [f_buf f_bor f_scr]. rewrite E in *. cbn [List.length]. repeat split; auto; lia.
    - unfold txt. cbn [f_bor f_buf]. rewrite E. unfold consumed. cbn [List.length skipn].
      replace (S (List.length s) - List.length s - 1) with 0 by lia. reflexivity. }
  destruct I0 as (I0 & E0 & T0).
  destruct (flow_sound o base single VB _ _ LP I0) as (_ & I1 & w & r & T1 & E1 & Q).
  rewrite T0 in T1. cbn [app] in T1. rewrite E0 in Q.
  assert (CT : cow_str text = w /\ valid w).
  { rewrite <- T1. unfold txt. destruct (f_bor sf).
    - apply bind_inv in TX as (t & SL & TX). assert (text = Borrowed t) as -> by congruence.
      assert (V := valid_slice _ _ _ _ VB SL). unfold slice in SL. destruct (_ && _ && _); [|discriminate].
      assert (t = firstn (consumed base (f_buf sf) - 1) (skipn 1 base)) as -> by congruence. auto.
    - apply bind_inv in TX as (t & U & TX). assert (text = Owned t) as -> by congruence. unfold utf8_unwrap in U.
      destruct (valid_utf8 (f_scr sf)) eqn:VU; [|discriminate]. assert (t = f_scr sf) as -> by congruence. auto. }
  destruct CT as [CW VW].
  exists s, text, r. split; [exact E|]. split; [congruence|]. rewrite CW. split; [exact VW|].
  split; [|split; [|split]].
  - intros NW. apply (raw_quoted single s w r Q) with (a := []); [|reflexivity|exact VW].
    intros S1. apply (no_wide_suffix [(if single then 39 else 34)%N]). rewrite E in NW. apply NW, S1.
  - assert (n = consumed base (f_buf s1)) as -> by congruence.
    apply adv_inv with (base := base) in A1 as (I2 & E2 & _); [|exact I1].
    destruct I2 as (k & K & EK & _). rewrite EK, consumed_skipn by lia. rewrite <- EK, E2, E1. reflexivity.
  - assert (n = consumed base (f_buf s1)) as -> by congruence. unfold consumed. lia.
  - intros x ->. destruct (f_bor sf) eqn:BF.
    2: { apply bind_inv in TX as (t & U & TX). discriminate. }
    destruct I1 as (k & K & EK & _). cbn [cow_str] in CW. rewrite <- CW in T1. unfold txt in T1. rewrite BF in T1.
    rewrite EK, consumed_skipn in T1 by lia. rewrite <- T1, <- E1, EK.
    rewrite E. cbn [skipn]. f_equal. destruct k as [|k]; [lia|]. cbn [skipn]. 
    replace (S k - 1) with k by lia. symmetry. apply firstn_skipn.
Qed.

(** ** Completeness *)
Lemma cache_static o s n : extendable o = false -> cache o s n = Ok tt.
Proof.
  intros H. unfold cache. generalize 0. induction n as [|n IH]; intros k; cbn [cache_at]; [reflexivity|].
  destruct (width_at s k); [rewrite H; reflexivity|apply IH].
Qed.
Lemma runs_fuel {E S R} (body : S -> res E (step S R)) (mu : S -> nat) s r : runs body s r ->
  (forall s s', body s = Ok (Next s') -> mu s' < mu s) -> forall fuel, mu s < fuel -> loop fuel body s = Ok r.
Proof.
  intros H M. induction H as [s r B|s s' r B H IH]; intros [|fuel] L; try lia; cbn [loop]; rewrite B; [reflexivity|].
  apply IH. specialize (M _ _ B). lia.
Qed.

(** A text of ASCII characters up to [r]. *)
Definition soft (r b : str) : Prop := exists a, b = a ++ r /\ ascii a.
Lemma soft_boundary r b k : head_ok r -> soft r b -> k <= List.length b - List.length r ->
  is_boundary b k = true /\ soft r (skipn k b).
Proof.
  intros H (a & -> & A) L. rewrite app_length in L.
  assert (E : a ++ r = firstn k a ++ (skipn k a ++ r)) by (rewrite app_assoc, firstn_skipn; reflexivity).
  split.
  - rewrite E. pose proof (boundary_app (firstn k a) (skipn k a ++ r)) as Y.
    rewrite firstn_length, Nat.min_l in Y by lia. apply Y. destruct (skipn k a) as [|x t] eqn:S; [exact H|]. cbn.
    assert (X : ascii (skipn k a)) by (apply ascii_skipn, A). rewrite S in X. inversion X; subst.
    unfold is_cont. lia.
  - exists (skipn k a). rewrite skipn_app. replace (k - List.length a) with 0 by lia.
    split; [reflexivity|apply ascii_skipn, A].
Qed.
Lemma encode_ascii c : ascii (encode c) -> (c < 128)%N /\ encode c = [c].
Proof.
  unfold encode. destruct (c <? 128)%N eqn:L; [intros _; split; [lia|reflexivity]|].
  destruct (c <? 2048)%N; [|destruct (c <? 65536)%N]; intros H; apply Forall_inv in H; exfalso; lia.
Qed.
Lemma soft_app r a b : (exists c, b = c ++ r) -> soft r (a ++ b) -> ascii a /\ soft r b.
Proof.
  intros (c & ->) (x & E & A). rewrite app_assoc in E. apply app_inv_tail in E. subst x.
  apply Forall_app in A as [A B]. split; [exact A|]. exists c. auto.
Qed.
Lemma quoted_suffix single s v r : quoted single s v r ->
  exists a, s = a ++ (if single then 39 else 34)%N :: r.
Proof.
  induction 1 as [r C|c s v r C W Q ES H (a & ->)|s v r S1 H (a & ->)|e c s v r S1 D SC H (a & ->)|g s v r G0 G H (a & ->)
                 |n s s' v r l G DM H (a & ->)|n s s' v r l S1 B G DM H (a & ->)].
  - exists []. reflexivity.
  - exists (encode c ++ a). rewrite <- app_assoc. reflexivity.
  - exists (39 :: 39 :: a)%N. reflexivity.
  - exists (e ++ a). rewrite <- app_assoc. reflexivity.
  - exists (g ++ a). rewrite <- app_assoc. reflexivity.
  - destruct (gap_suffix _ _ _ _ _ G) as (g & ->). exists (g ++ a). rewrite <- app_assoc. reflexivity.
  - destruct (gap_suffix _ _ _ _ _ G) as (g & ->). exists (92%N :: g ++ a). cbn. rewrite <- app_assoc. reflexivity.
Qed.
Lemma quoted_suffix' single s v r : quoted single s v r -> exists a, s = a ++ r.
Proof.
  intros H. destruct (quoted_suffix _ _ _ _ H) as (a & ->). exists (a ++ [(if single then 39 else 34)%N]).
  rewrite <- app_assoc. reflexivity.
Qed.
Lemma quoted_ne single s v r : quoted single s v r -> s <> [].
Proof. intros H. destruct (quoted_suffix _ _ _ _ H) as ([|x a] & ->); discriminate. Qed.

Lemma denotes_cons e c : denotes e c -> exists x t, e = 92%N :: x :: t /\ x <> 10%N /\ x <> 13%N /\ ascii e /\ 2 <= List.length e.
Proof.
  intros [x v IN|x n ds IN L F].
  - exists x, []. split; [reflexivity|].
    cbn in IN. repeat destruct IN as [IN|IN]; try contradiction; injection IN as <- <-;
      (split; [discriminate|split; [discriminate|split; [repeat constructor|cbn; lia]]]).
  - exists x, ds. split; [reflexivity|].
    assert (A : ascii ds) by (eapply Forall_impl; [|exact F]; unfold hex_digit; cbn; lia).
    cbn in IN. repeat destruct IN as [IN|IN]; try contradiction; injection IN as <- <-;
      (split; [discriminate|split; [discriminate|split; [repeat constructor; exact A|cbn; lia]]]).
Qed.
Lemma denotes_unescape o e c s : extendable o = false -> denotes e c -> head_ok s ->
  flow_unescape o (e ++ s) = Ok (encode_point c, List.length e).
Proof.
  intros O D H. destruct (denotes_cons _ _ D) as (x & t & E & _ & _ & A & _).
  unfold flow_unescape. rewrite !cache_static by exact O. cbn [bind]. rewrite E. cbn [app].
  change (at_is (92%N :: x :: t ++ s) 0 92) with true. cbn [negb].
  assert (S1 : soft s (92%N :: x :: t ++ s)) by (exists e; rewrite E; split; [reflexivity|rewrite <- E; exact A]).
  assert (LS : List.length (92%N :: x :: t ++ s) = S (S (List.length t + List.length s))) by (cbn; rewrite app_length; lia).
  destruct (soft_boundary s _ 1 H S1) as [B1 S2]; [lia|].
  unfold skip at 1. rewrite B1. cbn [bind skipn] in *. rewrite !cache_static by exact O. cbn [bind].
  destruct (soft_boundary s _ 1 H S2) as [B2 S3]; [cbn [List.length] in *; rewrite app_length; lia|]. cbn [skipn] in S3.
  destruct D as [y v IN|y n ds IN L F]; injection E as -> E; [subst t|subst ds].
  - rewrite (escape_of_table _ _ IN). unfold skip. rewrite B2. cbn [bind skipn]. unfold consumed. cbn [bind List.length app].
    replace (S (S (List.length s)) - List.length s) with 2 by lia.
    rewrite (proj2 (encode_table _ _ IN)). reflexivity.
  - rewrite (escape_of_numeric _ _ IN). unfold skip at 1. rewrite B2. cbn [bind skipn]. rewrite cache_static by exact O. cbn [bind]. rewrite <- L.
    rewrite value_read_hex by exact F. cbn [bind].
    destruct (soft_boundary s _ (List.length t) H S3) as [B3 S4]; [rewrite app_length; lia|].
    unfold skip. rewrite B3. cbn [bind]. rewrite skipn_app_exact. unfold consumed. cbn [List.length]. rewrite app_length.
    unfold hex_number, hex_from. repeat f_equal. lia.
Qed.

Lemma is_blank_false_of_break s : is_break s = true -> is_blank s = false.
Proof. intros H. destruct (is_blank s) eqn:B; [|reflexivity]. rewrite is_blank_not_break in H by exact B. discriminate. Qed.

Section Complete.
  Variables (o : flags) (base : str) (single : bool) (r : str).
  Hypothesis VB : valid base.
  Hypothesis B1 : is_boundary base 1 = true.
  Hypothesis ST : extendable o = false.
  Hypothesis HR : head_ok r.
  Notation txt := (txt base).
  Notation inside := (inside base).
  Notation q := (if single then 39 else 34)%N.

  Lemma no_borrow_ok s : inside s -> exists s', f_no_borrow base s = Ok s' /\
    inside s' /\ f_buf s' = f_buf s /\ f_st s' = f_st s /\ f_bor s' = false /\ txt s' = txt s.
  Proof.
    intros IN. assert (exists s', f_no_borrow base s = Ok s') as (s' & E).
    { unfold f_no_borrow. destruct (f_bor s); [|eauto]. destruct IN as (k & K & E & BD & _).
      unfold slice. rewrite E, consumed_skipn, B1, BD by lia.
      replace (Nat.leb 1 k) with true by (symmetry; apply Nat.leb_le; lia). cbn. eauto. }
    exists s'. split; [exact E|]. apply no_borrow_inv; assumption.
  Qed.
  Lemma adv_can s n : is_boundary (f_buf s) n = true -> exists s', f_adv s n = Ok s'.
  Proof. intros B. unfold f_adv, adv, skip. rewrite B. cbn. eauto. Qed.
  Lemma adv_line_can s : is_boundary (f_buf s) (break_amt (f_buf s)) = true -> exists s', f_adv_line s = Ok s'.
  Proof. intros B. unfold f_adv_line, adv_line, skip. rewrite B. cbn. eauto. Qed.
  Lemma adv_head_can s : is_boundary (f_buf s) 1 = true -> exists s', f_adv (f_push_head s) 1 = Ok s'.
  Proof.
    intros B. apply adv_can. unfold f_push_head. destruct (f_bor s); [exact B|]. cbn [f_push f_buf]. exact B.
  Qed.

  (** The measure of the inner loops. *)
  Lemma skipn_shorter {A} (s : list A) n : s <> [] -> 0 < n -> List.length (skipn n s) < List.length s.
  Proof.
    intros N P. rewrite skipn_length. assert (0 < List.length s) by (destruct s; [congruence|cbn; lia]). lia.
  Qed.
  Lemma f_adv_buf s n s' : f_adv s n = Ok s' -> f_buf s' = skipn n (f_buf s).
  Proof.
    unfold f_adv. intros H. apply bind_inv in H as ([b st] & A & H). apply adv_ok in A as (-> & _).
    assert (s' = mkF (skipn n (f_buf s)) st (f_scr s) (f_bor s)) as -> by congruence. reflexivity.
  Qed.
  Lemma no_borrow_buf s s' : f_no_borrow base s = Ok s' -> f_buf s' = f_buf s.
  Proof.
    unfold f_no_borrow. destruct (f_bor s); [|congruence]. intros H. apply bind_inv in H as (t & _ & H).
    assert (s' = mkF (f_buf s) (f_st s) (f_scr s ++ t) false) as -> by congruence. reflexivity.
  Qed.
  Lemma push_head_buf s : f_buf (f_push_head s) = f_buf s.
  Proof. unfold f_push_head. destruct (f_bor s); reflexivity. Qed.
  Lemma word_measure p p' : flow_word_body o base single p = Ok (Next p') ->
    List.length (f_buf (fst p')) < List.length (f_buf (fst p)).
  Proof.
    destruct p as [s esc]. unfold flow_word_body. destruct (is_wsZ (f_buf s)) eqn:W; [discriminate|].
    assert (NE : f_buf s <> []) by (intros E; rewrite E in W; discriminate).
    intros B. apply bind_inv in B as (u & _ & B).
    destruct (_ && _ && at_is (f_buf s) 1 39).
    { apply bind_inv in B as (s1 & N1 & B). apply bind_inv in B as (s2 & A2 & B).
      assert (p' = (s2, esc)) as -> by congruence. cbn [fst]. apply f_adv_buf in A2. cbn [f_push f_buf] in A2.
      apply no_borrow_buf in N1. rewrite A2, N1. apply skipn_shorter; [exact NE|lia]. }
    destruct (_ || _); [discriminate|]. destruct (negb single && at_is (f_buf s) 0 92 && is_break _).
    { apply bind_inv in B as (s1 & N1 & B). apply bind_inv in B as (s2 & A2 & B).
      assert (p' = (s2, EStart)) as -> by congruence. cbn [fst]. apply f_adv_buf in A2.
      apply no_borrow_buf in N1. rewrite A2, N1. apply skipn_shorter; [exact NE|lia]. }
    destruct (negb single && at_is (f_buf s) 0 92) eqn:P5.
    { apply andb_true_iff in P5 as [_ P5].
      apply bind_inv in B as (s1 & N1 & B). apply bind_inv in B as ([w n] & UE & B). apply bind_inv in B as (s2 & A2 & B).
      assert (p' = (s2, esc)) as -> by congruence. cbn [fst]. apply f_adv_buf in A2. cbn [f_push f_buf] in A2.
      apply no_borrow_buf in N1. rewrite N1 in *. rewrite A2. apply skipn_shorter; [exact NE|].
      apply unescape_denotes in UE as (e & c & _ & L & D & _); [|exact P5].
      destruct (denotes_cons _ _ D) as (? & ? & _ & _ & _ & _ & K). lia. }
    apply bind_inv in B as (s2 & A2 & B). assert (p' = (s2, esc)) as -> by congruence. cbn [fst].
    apply f_adv_buf in A2. rewrite A2, push_head_buf. apply skipn_shorter; [exact NE|lia].
  Qed.
  Lemma ws_measure p p' : flow_ws_body o base p = Ok (Next p') ->
    List.length (f_buf (fst (fst (fst p')))) < List.length (f_buf (fst (fst (fst p)))).
  Proof.
    destruct p as [[[s esc] ws] lines]. unfold flow_ws_body. cbn [fst]. intros B. apply bind_inv in B as (u & _ & B).
    destruct (is_blank (f_buf s)) eqn:BL.
    { apply bind_inv in B as (s2 & A2 & B). assert (p' = (s2, esc, S ws, lines)) as -> by congruence. cbn [fst].
      apply f_adv_buf in A2. rewrite A2, push_head_buf. apply skipn_shorter; [apply is_blank_nonempty, BL|lia]. }
    destruct (is_break (f_buf s)) eqn:BR; [|discriminate].
    apply bind_inv in B as (s1 & N1 & B). apply no_borrow_buf in N1.
    assert (exists s2 e2 w2, f_adv_line s1 = Ok s2 /\ p' = (s2, e2, w2, S lines)) as (s2 & e2 & w2 & A2 & ->).
    { destruct esc; apply bind_inv in B as (s2 & A2 & B); exists s2; do 2 eexists; (split; [exact A2|]);
        match goal with H : Ok (Next ?x) = Ok (Next p') |- _ => assert (p' = x) as -> by congruence end; reflexivity. }
    cbn [fst]. unfold f_adv_line in A2. apply bind_inv in A2 as ([b st] & A & A2). apply adv_line_ok in A as (-> & _).
    assert (f_buf s2 = skipn (break_amt (f_buf s1)) (f_buf s1)) as ->.
    { assert (s2 = mkF (skipn (break_amt (f_buf s1)) (f_buf s1)) st (f_scr s1) (f_bor s1)) as -> by congruence. reflexivity. }
    rewrite N1. apply is_break_nonempty in BR as [NE P]. apply skipn_shorter; [exact NE|lia].
  Qed.
  Lemma word_loop s esc x : runs (flow_word_body o base single) (s, esc) x -> flow_word o base single s esc = Ok x.
  Proof.
    intros R. unfold flow_word. eapply runs_fuel; [exact R|exact word_measure|]. cbn [fst]. unfold fuel_of. lia.
  Qed.
  Lemma ws_loop s esc x : runs (flow_ws_body o base) (s, esc, 0, 0) x -> flow_ws o base s esc = Ok x.
  Proof.
    intros R. unfold flow_ws. eapply runs_fuel; [exact R|exact ws_measure|]. cbn [fst]. unfold fuel_of. lia.
  Qed.

  (** The end of a round, and the rounds after it. *)
  Definition finish (s sf : fstate) : Prop :=
    exists s1 esc1 (closed : bool), runs (flow_word_body o base single) (s, ENone) (s1, esc1, closed) /\
      if closed then sf = s1
      else exists s2 esc2 ws lines s3, runs (flow_ws_body o base) (s1, esc1, 0, 0) (s2, esc2, ws, lines) /\
             flow_join base s2 esc2 ws lines = Ok s3 /\ runs (flow_body o base single) s3 sf.
  Lemma finish_body s sf : is_doc_indicator (f_buf s) (scol (f_st s)) = false -> f_buf s <> [] -> finish s sf ->
    runs (flow_body o base single) s sf.
  Proof.
    intros M NE (s1 & esc1 & closed & R & K).
    assert (HB : flow_body o base single s = let* '(s, esc, closed) := Ok (s1, esc1, closed) in
      if closed : bool then Ok (Done s)
      else
        let* '(s, esc, ws, lines) := flow_ws o base s esc in
        let* s := flow_join base s esc ws lines in
        Ok (Next s)).
    { unfold flow_body. rewrite !cache_static by exact ST. cbn [bind]. rewrite M.
      destruct (f_buf s) eqn:E; [congruence|]. cbn [is_empty]. rewrite (word_loop _ _ _ R). reflexivity. }
    cbn [bind] in HB. destruct closed.
    - subst sf. apply runs_done, HB.
    - destruct K as (s2 & esc2 & ws & lines & s3 & R2 & J & R3). apply runs_next with (s' := s3); [|exact R3].
      rewrite HB, (ws_loop _ _ _ R2). cbn [bind]. rewrite J. reflexivity.
  Qed.
  Lemma finish_step s s1 sf : flow_word_body o base single (s, ENone) = Ok (Next (s1, ENone)) -> finish s1 sf -> finish s sf.
  Proof.
    intros B (s2 & esc & closed & R & K). exists s2, esc, closed. split; [|exact K]. eapply runs_next; eauto.
  Qed.

  (** White space, forward. *)
  Lemma gap_runs l n b b' l' : gap l n b b' l' -> forall s esc ws lines T bl,
    f_buf s = b -> inside s -> soft r b -> (exists a, b' = a ++ r) ->
    txt s = T ++ bl -> List.length bl = ws -> (esc = EStart -> is_break (f_buf s) = true /\ ws = 0) ->
    (l = false -> scol (f_st s) <> 0) ->
    exists s' esc' ws' bl', runs (flow_ws_body o base) (s, esc, ws, lines) (s', esc', ws', lines + n) /\
      inside s' /\ f_buf s' = b' /\ txt s' = T ++ bl' /\ List.length bl' = ws' /\
      (l' = false -> scol (f_st s') <> 0) /\
      (forall g, n = 0 -> b = g ++ b' -> bl' = bl ++ g) /\
      (esc = ENone -> esc' = ENone) /\ (esc <> ENone -> n <> 0 -> esc' = EStarted).
  Proof.
    induction 1 as [l b W|l n c b b' l' BC G IH|l n b b' l' BR G IH];
      intros s esc ws lines T bl EB IN SO SX TX LB ES LC.
    - exists s, esc, ws, bl. rewrite Nat.add_0_r. split.
      { apply runs_done. unfold flow_ws_body. rewrite cache_static by exact ST. cbn [bind].
        rewrite EB. apply not_white in W. unfold is_ws in W. apply orb_false_iff in W as [-> ->]. reflexivity. }
      repeat split; auto; [|congruence]. intros g _ E. assert (g = []) as ->.
      { destruct g; [reflexivity|]. apply (f_equal (@List.length N)) in E. cbn in E. rewrite app_length in E. lia. }
      rewrite app_nil_r. reflexivity.
    - assert (SX2 : exists a, b = a ++ r).
      { destruct (gap_suffix _ _ _ _ _ G) as (g & ->). destruct SX as (a & ->). exists (g ++ a). apply app_assoc. }
      destruct (soft_boundary r _ 1 HR SO) as [BD S2].
      { destruct SX2 as (a & ->). cbn [List.length]. rewrite app_length. lia. }
      cbn [skipn] in S2.
      destruct (adv_head_can s) as (s1 & A1); [rewrite EB; exact BD|].
      destruct (adv_head_inv base s s1 IN A1) as (I1 & E1 & ST1 & _ & T1). rewrite EB in E1, T1. cbn [skipn firstn] in E1, T1.
      assert (BL : is_blank (f_buf s) = true) by (apply is_blank_iff; eauto).
      assert (NES : esc <> EStart).
      { intros X. destruct (ES X) as [Y _]. rewrite is_blank_not_break in Y by exact BL. discriminate. }
      destruct (IH s1 esc (S ws) lines T (bl ++ [c]) E1 I1 S2 SX) as (s' & esc' & ws' & bl' & R & K).
      + rewrite T1, TX, app_assoc. reflexivity.
      + rewrite app_length. cbn. lia.
      + congruence.
      + intros _. rewrite ST1. cbn. lia.
      + exists s', esc', ws', bl'. split.
        { eapply runs_next; [|exact R]. unfold flow_ws_body. rewrite cache_static by exact ST. cbn [bind].
          rewrite BL, A1. reflexivity. }
        destruct K as (K1 & K2 & K3 & K4 & K5 & K6 & K7 & K8). repeat split; auto.
        intros g N0 E. destruct g as [|y g].
        { exfalso. cbn [app] in E. destruct (gap_suffix _ _ _ _ _ G) as (z & Z).
          apply (f_equal (@List.length N)) in E. apply (f_equal (@List.length N)) in Z. rewrite app_length in Z. cbn in E. lia. }
        cbn [app] in E. injection E as -> E. rewrite (K6 g N0 E), <- app_assoc. reflexivity.
    - assert (BK : is_break (f_buf s) = true) by (rewrite EB; apply is_break_iff, BR).
      assert (SX2 : exists a, skipn (break_len b) b = a ++ r).
      { destruct (gap_suffix _ _ _ _ _ G) as (g & ->). destruct SX as (a & ->). exists (g ++ a). apply app_assoc. }
      destruct (soft_boundary r _ (break_len b) HR SO) as [BD S2].
      { destruct SX2 as (a & E). apply (f_equal (@List.length N)) in E. rewrite skipn_length, app_length in E.
        pose proof (break_amt_le b). rewrite <- break_len_amt in H. lia. }
      destruct (no_borrow_ok s IN) as (s1 & N1 & I1 & E1 & ST1 & BF & T1).
      destruct (adv_line_can s1) as (s2 & A2); [rewrite E1, EB, <- break_len_amt; exact BD|].
      destruct (adv_line_inv base s1 s2 I1 A2) as (I2 & E2 & ST2 & _ & _ & T2).
      rewrite E1, EB, <- break_len_amt in E2.
      set (esc1 := match esc with ENone => ENone | _ => EStarted end).
      destruct (IH s2 esc1 ws (S lines) T bl E2 I2 S2 SX) as (s' & esc' & ws' & bl' & R & K).
      + rewrite T2, T1 by exact BF. exact TX.
      + exact LB.
      + unfold esc1. destruct esc; discriminate.
      + discriminate.
      + exists s', esc', ws', bl'. replace (lines + S n) with (S lines + n) by lia. split.
        { eapply runs_next; [|exact R]. unfold flow_ws_body. rewrite cache_static by exact ST. cbn [bind].
          rewrite is_blank_false_of_break by exact BK. rewrite BK, N1. cbn [bind]. unfold esc1.
          destruct esc; cbv iota beta; rewrite A2; cbn [bind]; [reflexivity| |reflexivity].
          destruct (ES eq_refl) as [_ ->]. reflexivity. }
        destruct K as (K1 & K2 & K3 & K4 & K5 & K6 & K7 & K8).
        split; [exact K1|]. split; [exact K2|]. split; [exact K3|]. split; [exact K4|]. split; [exact K5|].
        split; [discriminate|]. split; [intros ->; apply K7; reflexivity|].
        intros NE _. destruct n as [|n].
        * assert (RR := R). clear - RR NE G BR ES E2 ST. unfold esc1 in RR.
          assert (esc1 = EStarted) as EE by (unfold esc1; destruct esc; congruence). fold esc1 in RR. rewrite EE in RR.
          assert (forall p x, runs (flow_ws_body o base) p x -> snd (fst (fst p)) = EStarted -> snd (fst (fst x)) = EStarted) as KK.
          { clear. induction 1 as [p x B|p p' x B R IH]; intros E.
            - destruct p as [[[s e] w] ln]. cbn in E. subst e. unfold flow_ws_body in B. apply bind_inv in B as (u & _ & B).
              destruct (is_blank _); [apply bind_inv in B as (? & _ & B); discriminate|].
              destruct (is_break _); [apply bind_inv in B as (? & _ & B); apply bind_inv in B as (? & _ & B); discriminate|].
              match type of B with Ok (Done ?y) = _ => assert (x = y) as -> by congruence end. reflexivity.
            - apply IH. destruct p as [[[s e] w] ln]. cbn in E. subst e. unfold flow_ws_body in B. apply bind_inv in B as (u & _ & B).
              destruct (is_blank _); [apply bind_inv in B as (? & _ & B)|].
              + match type of B with Ok (Next ?y) = _ => assert (p' = y) as -> by congruence end. reflexivity.
              + destruct (is_break _); [apply bind_inv in B as (? & _ & B); apply bind_inv in B as (? & _ & B)|discriminate].
                match type of B with Ok (Next ?y) = _ => assert (p' = y) as -> by congruence end. reflexivity. }
          exact (KK _ _ RR eq_refl).
        * apply K8; [|discriminate]. unfold esc1. destruct esc; [congruence|discriminate|discriminate].
  Qed.

  Lemma unmarked b (l : bool) n : (l = false -> n <> 0) -> (l = true -> ~ document_marker b) -> is_doc_indicator b n = false.
  Proof.
    intros A B. destruct n as [|n]; [|reflexivity]. destruct l; [|destruct (A eq_refl eq_refl)].
    specialize (B eq_refl). rewrite <- document_marker_iff in B. destruct (is_doc_indicator b 0); congruence.
  Qed.
  Lemma gap_stop l n s s' l' : gap l n s s' l' -> ~ white s'.
  Proof. induction 1; auto. Qed.
  Lemma break_head b : break_len b <> 0 -> is_wsZ b = true.
  Proof. intros H. apply wsZ_iff. right. right. exact H. Qed.

  Lemma forward s v r0 : quoted single s v r0 -> r0 = r -> forall st, f_buf st = s -> inside st -> soft r s ->
    (white s -> scol (f_st st) <> 0) ->
    exists sf, finish st sf /\ inside sf /\ f_buf sf = q :: r /\ txt sf = txt st ++ v.
  Proof.
    induction 1 as [r0 C|c s v r0 C W Q ES H IH|s v r0 S1 H IH|e c s v r0 S1 D SC H IH|g s v r0 G0 G H IH
                 |n s s' v r0 l G DM H IH|n s s' v r0 l S1 B G DM H IH]; intros ER st EB IN SO WC; subst r0.
    - (* the closing quote *)
      exists st. rewrite app_nil_r. split; [|auto]. exists st, ENone, true. split; [|reflexivity].
      apply runs_done. unfold flow_word_body. rewrite EB.
      assert (WZ : is_wsZ (q :: r) = false) by (destruct single; reflexivity).
      rewrite WZ, cache_static by exact ST. cbn [bind].
      destruct (single && at_is (q :: r) 0 39 && at_is (q :: r) 1 39) eqn:P.
      { exfalso. apply andb_true_iff in P as [P P1]. apply andb_true_iff in P as [-> _]. apply C. split; [reflexivity|].
        destruct r as [|y t]; [discriminate|]. cbn in P1. apply N.eqb_eq in P1 as ->. eauto. }
      destruct single; reflexivity.
    - (* a character *)
      destruct (soft_app r (encode c) s (quoted_suffix' _ _ _ _ H) SO) as [AC SS].
      destruct (encode_ascii c AC) as [LC EC]. rewrite EC in *. cbn [app] in *.
      assert (W' := W). apply not_white in W'. 
      destruct (soft_boundary r _ 1 HR SO) as [BD _].
      { destruct SS as (a & -> & _). cbn [List.length]. rewrite app_length. lia. }
      destruct (adv_head_can st) as (s1 & A1); [rewrite EB; exact BD|].
      destruct (adv_head_inv base st s1 IN A1) as (I1 & E1 & ST1 & _ & T1). rewrite EB in E1, T1. cbn [skipn firstn] in E1, T1.
      destruct (IH eq_refl s1 E1 I1 SS) as (sf & F & I' & E' & T').
      { intros _. rewrite ST1. cbn. lia. }
      exists sf. split; [|split; [exact I'|split; [exact E'|]]].
      2: { rewrite T', T1, <- app_assoc. reflexivity. }
      apply (finish_step st s1); [|exact F]. unfold flow_word_body. rewrite EB.
      rewrite wsZ_ws, W'. cbn [orb is_empty]. rewrite cache_static by exact ST. cbn [bind].
      assert (NQ : at_is (c :: s) 0 q = false).
      { unfold at_is. cbn [nth_error]. apply N.eqb_neq. exact Q. }
      assert (P1 : single && at_is (c :: s) 0 39 = false) by (destruct single; [exact NQ|reflexivity]).
      assert (P2 : negb single && at_is (c :: s) 0 34 = false) by (destruct single; [reflexivity|exact NQ]).
      assert (P3 : negb single && at_is (c :: s) 0 92 = false).
      { destruct single; [reflexivity|]. cbn. apply N.eqb_neq. apply ES. reflexivity. }
      rewrite P1, P2, P3. cbn [andb orb]. rewrite A1. reflexivity.
    - (* two quotes *)
      assert (SS : soft r s /\ exists a, s = a ++ r).
      { destruct (soft_app r [39; 39]%N s (quoted_suffix' _ _ _ _ H) SO) as [_ SS]. split; [exact SS|].
        exact (quoted_suffix' _ _ _ _ H). }
      destruct SS as [SS (a & SA)].
      destruct (soft_boundary r _ 2 HR SO) as [BD _].
      { rewrite SA. cbn [List.length]. rewrite app_length. lia. }
      destruct (no_borrow_ok st IN) as (s1 & N1 & I1 & E1 & ST1 & BF & T1).
      destruct (push_inv base s1 [39%N] I1 BF) as [IP TP].
      destruct (adv_can (f_push s1 [39%N]) 2) as (s2 & A2); [cbn [f_push f_buf]; rewrite E1, EB; exact BD|].
      destruct (adv_inv base _ _ _ IP A2) as (I2 & E2 & ST2 & _ & _ & _ & T2). cbn [f_push f_buf f_bor f_st] in E2, T2, ST2.
      rewrite E1, EB in E2. cbn [skipn] in E2. rewrite BF in T2.
      destruct (IH eq_refl s2 E2 I2 SS) as (sf & F & I' & E' & T').
      { intros _. rewrite ST2. cbn. lia. }
      exists sf. split; [|split; [exact I'|split; [exact E'|]]].
      2: { rewrite T', T2, TP, T1, <- app_assoc. reflexivity. }
      apply (finish_step st s2); [|exact F]. unfold flow_word_body. rewrite EB, S1.
      change (is_wsZ (39%N :: 39%N :: s)) with false. cbv iota. rewrite cache_static by exact ST. cbn [bind].
      change (true && at_is (39%N :: 39%N :: s) 0 39 && at_is (39%N :: 39%N :: s) 1 39) with true. cbv iota.
      rewrite N1. cbn [bind]. rewrite A2. reflexivity.
    - (* an escape *)
      destruct (soft_app r e s (quoted_suffix' _ _ _ _ H) SO) as [AE SS].
      assert (HS : head_ok s).
      { destruct SS as (a & -> & A). destruct a as [|y a]; [exact HR|]. apply Forall_inv in A. cbn. unfold is_cont. lia. }
      destruct (denotes_cons _ _ D) as (x & t & EE & X10 & X13 & _ & LE).
      assert (UE := denotes_unescape o e c s ST D HS).
      assert (PE : encode_point c = encode c) by (apply encode_point_ok; destruct SC; lia).
      assert (BD : is_boundary (e ++ s) (List.length e) = true) by (apply boundary_app, HS).
      destruct (no_borrow_ok st IN) as (s1 & N1 & I1 & E1 & ST1 & BF & T1).
      destruct (push_inv base s1 (encode c) I1 BF) as [IP TP].
      destruct (adv_can (f_push s1 (encode c)) (List.length e)) as (s2 & A2); [cbn [f_push f_buf]; rewrite E1, EB; exact BD|].
      destruct (adv_inv base _ _ _ IP A2) as (I2 & E2 & ST2 & _ & _ & _ & T2). cbn [f_push f_buf f_bor f_st] in E2, T2, ST2.
      rewrite E1, EB, skipn_app_exact in E2. rewrite BF in T2.
      destruct (IH eq_refl s2 E2 I2 SS) as (sf & F & I' & E' & T').
      { intros _. rewrite ST2. cbn. lia. }
      exists sf. split; [|split; [exact I'|split; [exact E'|]]].
      2: { rewrite T', T2, TP, T1, <- app_assoc. reflexivity. }
      apply (finish_step st s2); [|exact F]. unfold flow_word_body. rewrite EB, S1.
      assert (WZ : is_wsZ (e ++ s) = false) by (rewrite EE; reflexivity).
      assert (P92 : at_is (e ++ s) 0 92 = true) by (rewrite EE; reflexivity).
      assert (P34 : at_is (e ++ s) 0 34 = false) by (rewrite EE; reflexivity).
      assert (PB : is_break (skipn 1 (e ++ s)) = false).
      { rewrite EE. cbn [app skipn]. apply plain_byte_no_break. split; [exact X10|]. split; [exact X13|].
        rewrite EE in AE. apply Forall_inv_tail, Forall_inv in AE. exact AE. }
      rewrite WZ, cache_static by exact ST. cbn [bind negb andb orb]. rewrite P92, P34, PB. cbn [andb orb].
      rewrite N1. cbn [bind]. rewrite E1, EB, UE. cbn [bind]. rewrite PE, A2. reflexivity.
    - (* blanks *)
      destruct (soft_app r g s (quoted_suffix' _ _ _ _ H) SO) as [AG SS].
      assert (WH : white (g ++ s)).
      { destruct (gap_zero _ _ _ _ _ G eq_refl) as (g' & E & F). apply app_inv_tail in E as <-.
        destruct g as [|y g]; [congruence|]. left. exists y, (g ++ s). split; [reflexivity|]. inversion F; assumption. }
      destruct (gap_runs _ _ _ _ _ G st ENone 0 0 (txt st) [] EB IN SO (quoted_suffix' _ _ _ _ H))
        as (s2 & esc2 & ws & bl & R & I2 & E2 & T2 & LB & LC & GB & X1 & _);
        [rewrite app_nil_r; reflexivity|reflexivity|discriminate|intros _; exact (WC WH)|].
      cbn [Nat.add] in R. specialize (GB g eq_refl eq_refl). cbn [app] in GB. subst bl.
      destruct (IH eq_refl s2 E2 I2 SS) as (sf & F & I' & E' & T').
      { intros X. destruct (gap_stop _ _ _ _ _ G X). }
      exists sf. split; [|split; [exact I'|split; [exact E'|]]].
      2: { rewrite T', T2, <- app_assoc. reflexivity. }
      exists st, ENone, false. split.
      + apply runs_done. unfold flow_word_body. rewrite EB.
        assert (is_wsZ (g ++ s) = true) as -> by (apply wsZ_iff; right; exact WH). reflexivity.
      + exists s2, esc2, ws, 0, s2. split; [exact R|]. split; [reflexivity|].
        apply finish_body; [|rewrite E2; exact (quoted_ne _ _ _ _ H)|exact F].
        apply (unmarked _ false); [exact LC|discriminate].
    - (* a fold *)
      assert (WH : white s).
      { inversion G as [| |? ? ? ? ? K]; subst; [left; eauto|right; exact K]. }
      assert (SS : soft r s').
      { destruct (gap_suffix _ _ _ _ _ G) as (g & EG). rewrite EG in SO.
        exact (proj2 (soft_app r g s' (quoted_suffix' _ _ _ _ H) SO)). }
      destruct (gap_runs _ _ _ _ _ G st ENone 0 0 (txt st) [] EB IN SO (quoted_suffix' _ _ _ _ H))
        as (s2 & esc2 & ws & bl & R & I2 & E2 & T2 & LB & LC & _ & X1 & _);
        [rewrite app_nil_r; reflexivity|reflexivity|discriminate|intros _; exact (WC WH)|].
      cbn [Nat.add] in R. rewrite (X1 eq_refl) in R.
      destruct (no_borrow_ok s2 I2) as (s3 & N3 & I3 & E3 & ST3 & BF & T3).
      set (s4 := mkF (f_buf s3) (f_st s3) (txt st) (f_bor s3)).
      assert (I4 : inside s4 /\ txt s4 = txt st).
      { unfold s4, QuotedFacts.txt, QuotedFacts.inside. cbn [f_bor f_scr f_buf]. rewrite BF. split; [|reflexivity].
        destruct I3 as (k & K & E & BD & _). exists k. split; [exact K|]. split; [exact E|]. split; [exact BD|discriminate]. }
      destruct I4 as [I4 T4].
      destruct (push_inv base s4 (folded (S n)) I4 BF) as [IP TP].
      assert (E4 : f_buf (f_push s4 (folded (S n))) = s') by (cbn; congruence).
      destruct (IH eq_refl (f_push s4 (folded (S n))) E4 IP SS) as (sf & F & I' & E' & T').
      { intros X. destruct (gap_stop _ _ _ _ _ G X). }
      exists sf. split; [|split; [exact I'|split; [exact E'|]]].
      2: { rewrite T', TP, T4, <- app_assoc. reflexivity. }
      exists st, ENone, false. split.
      + apply runs_done. unfold flow_word_body. rewrite EB.
        assert (is_wsZ s = true) as -> by (apply wsZ_iff; right; exact WH). reflexivity.
      + exists s2, ENone, ws, (S n), (f_push s4 (folded (S n))). split; [exact R|]. split.
        * unfold flow_join. rewrite N3. cbn [bind].
          assert (f_scr s3 = txt st ++ bl) as ->.
          { transitivity (txt s3); [unfold QuotedFacts.txt; rewrite BF; reflexivity|]. congruence. }
          unfold chop. rewrite app_length, LB. replace (Nat.leb ws _) with true by (symmetry; apply Nat.leb_le; lia).
          cbn [bind]. replace (List.length (txt st) + ws - ws) with (List.length (txt st)) by lia.
          rewrite firstn_app_exact. fold s4. destruct n; reflexivity.
        * apply finish_body; [|rewrite E4; exact (quoted_ne _ _ _ _ H)|exact F].
          cbn [f_push f_buf f_st]. unfold s4. cbn [f_buf f_st]. rewrite E3, E2, ST3. apply (unmarked _ l); assumption.
    - (* an escaped break *)
      destruct (gap_suffix _ _ _ _ _ G) as (g & EG). assert (QS := quoted_suffix' _ _ _ _ H).
      assert (S2 : (exists a, s = a ++ r)).
      { destruct QS as (a & ->). exists (g ++ a). rewrite EG. apply app_assoc. }
      destruct (soft_app r [92%N] s S2 SO) as [_ S3].
      assert (SS : soft r s').
      { rewrite EG in S3. exact (proj2 (soft_app r g s' QS S3)). }
      assert (BK : is_break s = true) by (apply is_break_iff, B).
      destruct (soft_boundary r _ 1 HR SO) as [BD _].
      { destruct S2 as (a & ->). cbn [List.length]. rewrite app_length. lia. }
      destruct (no_borrow_ok st IN) as (s1 & N1 & I1 & E1 & ST1 & BF1 & T1).
      destruct (adv_can s1 1) as (s1' & A1); [rewrite E1, EB; exact BD|].
      destruct (adv_inv base _ _ _ I1 A1) as (I1' & E1' & ST1' & BF1' & _ & _ & T1').
      rewrite E1, EB in E1'. cbn [skipn] in E1'. rewrite BF1 in T1'.
      destruct (gap_runs _ _ _ _ _ G s1' EStart 0 0 (txt st) [] E1' I1' S3 QS)
        as (s2 & esc2 & ws & bl & R & I2 & E2 & T2 & LB & LC & _ & _ & X2);
        [rewrite app_nil_r; congruence|reflexivity|intros _; rewrite E1'; auto|intros _; rewrite ST1'; cbn; lia|].
      cbn [Nat.add] in R. rewrite X2 in R by discriminate.
      destruct (no_borrow_ok s2 I2) as (s3 & N3 & I3 & E3 & ST3 & BF & T3).
      set (s4 := mkF (f_buf s3) (f_st s3) (txt st) (f_bor s3)).
      assert (I4 : inside s4 /\ txt s4 = txt st).
      { unfold s4, QuotedFacts.txt, QuotedFacts.inside. cbn [f_bor f_scr f_buf]. rewrite BF. split; [|reflexivity].
        destruct I3 as (k & K & E & BD' & _). exists k. split; [exact K|]. split; [exact E|]. split; [exact BD'|discriminate]. }
      destruct I4 as [I4 T4].
      destruct (push_inv base s4 (repeat 10%N n) I4 BF) as [IP TP].
      assert (E4 : f_buf (f_push s4 (repeat 10%N n)) = s') by (cbn; congruence).
      destruct (IH eq_refl (f_push s4 (repeat 10%N n)) E4 IP SS) as (sf & F & I' & E' & T').
      { intros X. destruct (gap_stop _ _ _ _ _ G X). }
      exists sf. split; [|split; [exact I'|split; [exact E'|]]].
      2: { rewrite T', TP, T4, <- app_assoc. reflexivity. }
      exists s1', EStart, false. split.
      + apply runs_next with (s' := (s1', EStart)).
        * unfold flow_word_body. rewrite EB, S1. change (is_wsZ (92%N :: s)) with false. cbv iota.
          rewrite cache_static by exact ST. cbn [bind negb andb orb skipn].
          change (at_is (92%N :: s) 0 34) with false. change (at_is (92%N :: s) 0 92) with true. cbn [andb].
          rewrite BK. rewrite N1. cbn [bind]. rewrite A1. reflexivity.
        * apply runs_done. unfold flow_word_body. rewrite E1', (break_head s B). reflexivity.
      + exists s2, EStarted, ws, (S n), (f_push s4 (repeat 10%N n)). split; [exact R|]. split.
        * unfold flow_join. rewrite N3. cbn [bind].
          assert (f_scr s3 = txt st ++ bl) as ->.
          { transitivity (txt s3); [unfold QuotedFacts.txt; rewrite BF; reflexivity|]. congruence. }
          unfold chop. rewrite app_length, LB. replace (Nat.leb ws _) with true by (symmetry; apply Nat.leb_le; lia).
          cbn [bind]. replace (List.length (txt st) + ws - ws) with (List.length (txt st)) by lia.
          rewrite firstn_app_exact. fold s4. destruct n; [|reflexivity].
          unfold f_push. cbn [repeat]. rewrite app_nil_r. destruct s4; reflexivity.
        * apply finish_body; [|rewrite E4; exact (quoted_ne _ _ _ _ H)|exact F].
          cbn [f_push f_buf f_st]. unfold s4. cbn [f_buf f_st]. rewrite E3, E2, ST3. apply (unmarked _ l); assumption.
  Qed.
End Complete.

Lemma eager_complete o st single s v r : extendable o = false ->
  valid ((if single : bool then 39 else 34)%N :: s) -> quoted single s v r -> soft r s -> valid v ->
  exists c st', scan_flow_scalar_eager o ((if single then 39 else 34)%N :: s) st single =
    Ok (TScalar c (if single then SingleQuote else DoubleQuote), S (List.length s) - List.length r, st') /\
    cow_str c = v.
Proof.
  intros ST VB Q SO VV. set (q := (if single then 39 else 34)%N) in *.
  assert (QA : (q < 128)%N /\ q <> 10%N /\ q <> 13%N) by (unfold q; destruct single; lia).
  destruct (valid_byte q s VB ltac:(lia)) as [B1 VS].
  destruct (quoted_suffix _ _ _ _ Q) as (a & ES). fold q in ES.
  assert (HR : head_ok r).
  { apply valid_head. assert (V2 : valid (q :: r)).
    { apply (valid_tail a); [|rewrite <- ES; exact VS]. destruct SO as (x & E & A).
      rewrite E in ES. change (q :: r) with ([q] ++ r) in ES. rewrite app_assoc in ES. apply app_inv_tail in ES.
      subst x. apply valid_ascii. apply Forall_app in A. tauto. }
    apply (valid_byte q r V2). lia. }
  assert (I0 : inside (q :: s) (mkF s (supd st 1 0 1) [] true)).
  { exists 1. cbn [f_buf f_bor f_scr List.length]. repeat split; auto; lia. }
  destruct (forward o (q :: s) single r B1 ST HR s v r Q eq_refl (mkF s (supd st 1 0 1) [] true) eq_refl I0 SO)
    as (sf & F & I' & E' & T').
  { intros _. cbn. lia. }
  apply finish_body in F; [|try exact B1; try exact ST; try (cbn; rewrite Nat.add_1_r; reflexivity)..|cbn [f_buf]; exact (quoted_ne _ _ _ _ Q)].
  assert (NF : scan_flow_scalar_eager o (q :: s) st single <> Fuel).
  { pose proof (scan_flow_eager_leaf o q s st single ltac:(split; [|split]; lia)) as LF. intros X. rewrite X in LF. cbn [leaf] in LF. tauto. }
  unfold scan_flow_scalar_eager in *. rewrite cache_static in * by exact ST. cbn [bind] in *.
  unfold f_adv at 1. unfold f_adv at 1 in NF. cbn [f_buf f_st f_scr f_bor] in *. unfold adv at 1. unfold adv at 1 in NF.
  unfold skip at 1. unfold skip at 1 in NF.
  rewrite B1 in *. cbn [bind skipn] in *. 
  assert (LP := runs_loop _ _ _ F (fuel_of (q :: s))).
  specialize (LP ltac:(intros X; rewrite X in NF; cbn [bind] in NF; congruence)).
  rewrite LP in *.
  cbn [bind] in *. clear NF.
  assert (T0 : txt (q :: s) (mkF s (supd st 1 0 1) [] true) = []).
  { unfold txt. cbn [f_bor f_buf]. unfold consumed. cbn [List.length].
    replace (S (List.length s) - List.length s - 1) with 0 by lia. reflexivity. }
  rewrite T0 in T'. cbn [app] in T'.
  assert (TE : exists c, (if f_bor sf then let* t := slice (q :: s) 1 (consumed (q :: s) (f_buf sf)) in Ok (Borrowed t)
                          else let* t := utf8_unwrap (f_scr sf) in Ok (Owned t)) = Ok c :> sres cow /\ cow_str c = v).
  { unfold txt in T'. destruct I' as (k & K & EK & BK & _). destruct (f_bor sf).
    - unfold slice. rewrite EK, consumed_skipn in * by lia. rewrite B1, BK.
      replace (Nat.leb 1 k) with true by (symmetry; apply Nat.leb_le; lia). cbn [andb bind]. eexists. split; [reflexivity|].
      cbn [cow_str]. exact T'.
    - unfold utf8_unwrap. rewrite T'. rewrite VV. cbn [bind]. eexists. split; [reflexivity|reflexivity]. }
  destruct TE as (c & TE & CV).
  match type of TE with ?m = _ =>
    match goal with |- context[bind (if f_bor sf then ?a else ?b) _] => change (if f_bor sf then a else b) with m end end.
  rewrite TE. cbn [bind]. rewrite cache_static by exact ST. cbn [bind].
  unfold f_adv, adv, skip. rewrite E'. fold q.
  assert (B2 : is_boundary (q :: r) 1 = true).
  { destruct r as [|y t]; [reflexivity|]. cbn in HR |- *. rewrite HR. reflexivity. }
  rewrite B2. cbn [bind f_buf f_st]. exists c, (supd (f_st sf) 1 0 1). split; [|exact CV].
  unfold consumed. cbn [List.length skipn]. reflexivity.
Qed.
