(** The byte checker of [Utf8] decides well-formedness; the escape encoder is UTF-8. *)
From Verif Require Import Utf8 Lex SpecUtf8 BaseFacts.
From Coq Require Import ZArith Lia ZifyBool ZifyN ZifyNat.
Ltac Zify.zify_post_hook ::= Z.to_euclidean_division_equations.
Open Scope N_scope.

Ltac split_if := repeat match goal with
  | |- context [if ?b then _ else _] => destruct b eqn:?
  | H : context [if ?b then _ else _] |- _ => destruct b eqn:?
  end.

Lemma enc1 v : v < 128 -> encode v = [v].
Proof. intros H. unfold encode. replace (v <? 128) with true by lia. reflexivity. Qed.
Lemma enc2 a b : 194 <= a <= 223 -> 128 <= b <= 191 ->
  let v := (a - 192) * 64 + (b - 128) in
  scalar_value v /\ encode v = [a; b] /\ 128 <= v < 2048.
Proof.
  intros A B v. assert (V : v = (a - 192) * 64 + (b - 128)) by reflexivity. clearbody v.
  assert (R : 128 <= v < 2048) by lia.
  split; [split; lia|]. split; [|exact R]. unfold encode.
  replace (v <? 128) with false by lia. replace (v <? 2048) with true by lia.
  repeat f_equal; lia.
Qed.
Lemma enc3 a b c : 224 <= a <= 239 -> 128 <= b <= 191 -> 128 <= c <= 191 ->
  (a = 224 -> 160 <= b) -> (a = 237 -> b <= 159) ->
  let v := (a - 224) * 4096 + (b - 128) * 64 + (c - 128) in
  scalar_value v /\ encode v = [a; b; c].
Proof.
  intros A B C L S v.
  assert (V : v = (a - 224) * 4096 + (b - 128) * 64 + (c - 128)) by reflexivity. clearbody v.
  split; [split; lia|]. unfold encode.
  replace (v <? 128) with false by lia. replace (v <? 2048) with false by lia.
  replace (v <? 65536) with true by lia.
  assert (v / 4096 = a - 224) by lia.
  assert (v / 64 = (a - 224) * 64 + (b - 128)) by lia.
  repeat f_equal; lia.
Qed.
Lemma enc4 a b c d : 240 <= a <= 244 -> 128 <= b <= 191 -> 128 <= c <= 191 -> 128 <= d <= 191 ->
  (a = 240 -> 144 <= b) -> (a = 244 -> b <= 143) ->
  let v := (a - 240) * 262144 + (b - 128) * 4096 + (c - 128) * 64 + (d - 128) in
  scalar_value v /\ encode v = [a; b; c; d].
Proof.
  intros A B C D L S v.
  assert (V : v = (a - 240) * 262144 + (b - 128) * 4096 + (c - 128) * 64 + (d - 128))
    by reflexivity. clearbody v.
  split; [split; lia|]. unfold encode.
  replace (v <? 128) with false by lia. replace (v <? 2048) with false by lia.
  replace (v <? 65536) with false by lia.
  assert (v / 262144 = a - 240) by lia.
  assert (v / 4096 = (a - 240) * 64 + (b - 128)) by lia.
  assert (v / 64 = (a - 240) * 4096 + (b - 128) * 64 + (c - 128)) by lia.
  repeat f_equal; lia.
Qed.

(** A character at the head is the encoding of a scalar value. *)
Lemma char_decode s n : utf8_char s = S n ->
  exists v, scalar_value v /\ firstn (S n) s = encode v /\ List.length (encode v) = S n.
Proof.
  unfold utf8_char, rng, is_cont. destruct s as [|a s]; [discriminate|].
  destruct (a <? 128) eqn:A0.
  { intros E. injection E as <-. exists a. rewrite enc1 by lia.
    split; [split; lia|split; reflexivity]. }
  destruct ((194 <=? a) && (a <=? 223)) eqn:A1.
  { destruct s as [|b s]; [discriminate|].
    destruct ((128 <=? b) && (b <=? 191)) eqn:B; [|discriminate].
    intros E. injection E as <-.
    destruct (enc2 a b ltac:(lia) ltac:(lia)) as (V & E & _).
    eexists; split; [exact V|]. rewrite E. split; reflexivity. }
  clear A1. destruct ((224 <=? a) && (a <=? 239)) eqn:A1.
  { destruct s as [|b [|c s]]; try discriminate.
    destruct (_ && ((128 <=? c) && (c <=? 191))) eqn:B; [|discriminate].
    intros E. injection E as <-.
    apply andb_true_iff in B as [B C].
    destruct (enc3 a b c) as (V & E);
      try (destruct (a =? 224) eqn:?, (a =? 237) eqn:?; lia).
    eexists; split; [exact V|]. rewrite E. split; reflexivity. }
  clear A1. destruct ((240 <=? a) && (a <=? 244)) eqn:A1; [|discriminate].
  destruct s as [|b [|c [|d s]]]; try discriminate.
  destruct (_ && ((128 <=? d) && (d <=? 191))) eqn:B; [|discriminate].
  intros E. injection E as <-.
  apply andb_true_iff in B as [B D]. apply andb_true_iff in B as [B C].
  destruct (enc4 a b c d) as (V & E);
    try (destruct (a =? 240) eqn:?, (a =? 244) eqn:?; lia).
  eexists; split; [exact V|]. rewrite E. split; reflexivity.
Qed.

Lemma char_encode v r : scalar_value v -> utf8_char (encode v ++ r) = List.length (encode v).
Proof.
  intros [V S]. unfold encode.
  destruct (v <? 128) eqn:A0; [|destruct (v <? 2048) eqn:A1; [|destruct (v <? 65536) eqn:A2]];
    cbn [app List.length]; unfold utf8_char, rng, is_cont.
  - rewrite A0. reflexivity.
  - replace (_ <? 128) with false by lia.
    replace (_ && _) with true by lia. replace (_ && _) with true by lia. reflexivity.
  - replace (_ <? 128) with false by lia.
    replace ((194 <=? _) && _) with false by lia.
    replace ((224 <=? _) && _) with true by lia.
    replace (_ && ((128 <=? 128 + v mod 64) && (128 + v mod 64 <=? 191))) with true; [reflexivity|].
    assert (v / 4096 < 16) by lia.
    assert (v / 64 = v / 4096 * 64 + v / 64 mod 64) by lia.
    destruct (224 + v / 4096 =? 224) eqn:?; [lia|].
    destruct (224 + v / 4096 =? 237) eqn:?; [|lia].
    assert (v / 4096 = 13) by lia. lia.
  - replace (_ <? 128) with false by lia.
    replace ((194 <=? _) && _) with false by lia.
    replace ((224 <=? _) && _) with false by lia.
    replace ((240 <=? _) && (_ <=? 244)) with true by lia.
    replace (_ && ((128 <=? 128 + v mod 64) && (128 + v mod 64 <=? 191))) with true; [reflexivity|].
    replace ((128 <=? 128 + v / 64 mod 64) && (128 + v / 64 mod 64 <=? 191)) with true by lia.
    replace ((128 <=? 128 + v mod 64) && (128 + v mod 64 <=? 191)) with true by lia.
    rewrite !andb_true_r.
    destruct (240 + v / 262144 =? 240) eqn:?; [lia|].
    destruct (240 + v / 262144 =? 244) eqn:?; lia.
Qed.

Lemma encode_nonempty v : exists b r, encode v = b :: r.
Proof. unfold encode. repeat destruct (_ <? _); eexists _, _; reflexivity. Qed.

Lemma char_le s : (utf8_char s <= List.length s)%nat.
Proof.
  unfold utf8_char. destruct s as [|a s]; [reflexivity|].
  destruct (a <? 128); [cbn; lia|].
  destruct (rng _ _ a). { destruct s as [|b s]; [cbn; lia|]. destruct (is_cont b); cbn; lia. }
  destruct (rng _ _ a). { destruct s as [|b [|c s]]; try (cbn; lia).
    destruct (_ && is_cont c); cbn; lia. }
  destruct (rng _ _ a); [|cbn; lia].
  destruct s as [|b [|c [|d s]]]; try (cbn; lia). destruct (_ && is_cont d); cbn; lia.
Qed.

Lemma valid_wf n : forall s, valid_fuel n s = true -> well_formed s.
Proof.
  induction n as [|n IH]; intros [|a s] H; cbn [valid_fuel] in H; try discriminate;
    try (exists []; split; [constructor|reflexivity]).
  destruct (utf8_char (a :: s)) as [|k] eqn:E; [discriminate|].
  destruct (char_decode _ _ E) as (v & V & F & _).
  destruct (IH _ H) as (ps & Fp & Ep).
  exists (v :: ps). split; [constructor; assumption|].
  cbn [flat_map]. rewrite <- Ep, <- F. symmetry; apply firstn_skipn.
Qed.

Lemma wf_valid_fuel ps : forall n, Forall scalar_value ps ->
  (List.length (flat_map encode ps) <= n)%nat -> valid_fuel n (flat_map encode ps) = true.
Proof.
  induction ps as [|v ps IH]; intros n F L; cbn [flat_map].
  - destruct n; reflexivity.
  - inversion F as [|? ? V F']; subst. cbn [flat_map] in L. rewrite app_length in L.
    pose proof (char_encode v (flat_map encode ps) V) as C.
    destruct (encode_nonempty v) as (b & r & E).
    destruct n as [|n]; [rewrite E in L; cbn in L; lia|].
    rewrite E in *. cbn [app] in *. cbn [valid_fuel]. rewrite C. cbn [List.length].
    change (skipn (S (List.length r)) (b :: r ++ flat_map encode ps))
      with (skipn (List.length r) (r ++ flat_map encode ps)).
    rewrite skipn_app, skipn_all, Nat.sub_diag. cbn [app skipn].
    apply IH; [exact F'|]. cbn in L. lia.
Qed.

Lemma valid_iff s : valid_utf8 s = true <-> well_formed s.
Proof.
  split; [apply valid_wf|]. intros (ps & F & ->). apply wf_valid_fuel; [exact F|reflexivity].
Qed.

(** ** The encoder of escapes *)
Lemma lor_add n k x : x < 2 ^ n -> N.land k (N.ones n) = 0 -> N.lor k x = k + x.
Proof.
  intros X K. symmetry. rewrite N.add_nocarry_lxor, N.lxor_lor; [reflexivity| |];
    (apply N.bits_inj; intros i; rewrite N.land_spec, N.bits_0;
     destruct (N.lt_ge_cases i n) as [I|I];
     [ apply (f_equal (fun z => N.testbit z i)) in K;
       rewrite N.land_spec, N.bits_0 in K;
       rewrite N.ones_spec_low, andb_true_r in K by exact I; rewrite K; reflexivity
     | destruct (N.eq_dec x 0) as [->|X0]; [rewrite N.bits_0; apply andb_false_r|];
       rewrite (N.bits_above_log2 x), andb_false_r; [reflexivity|];
       apply N.lt_le_trans with n; [|exact I];
       apply N.log2_lt_pow2; [lia|exact X] ]).
Qed.

Lemma land63 x : N.land x 63 = x mod 64.
Proof. change 63 with (N.ones 6). rewrite N.land_ones. reflexivity. Qed.

Lemma encode_point_ok v : v < 2097152 -> encode_point v = encode v.
Proof.
  intros H. unfold encode_point, encode. rewrite !land63, !N.shiftr_div_pow2.
  change (2 ^ 6) with 64. change (2 ^ 12) with 4096. change (2 ^ 18) with 262144.
  change 255 with (N.ones 8). rewrite N.land_ones. change (2 ^ 8) with 256.
  replace (v <=? 127) with (v <? 128) by lia.
  replace (v <=? 2047) with (v <? 2048) by lia.
  replace (v <=? 65535) with (v <? 65536) by lia.
  destruct (v <? 128) eqn:A; [reflexivity|].
  assert (M : forall x, N.lor 128 (x mod 64) = 128 + x mod 64).
  { intros x. apply (lor_add 6); [|reflexivity]. change (2 ^ 6) with 64. lia. }
  rewrite !M.
  destruct (v <? 2048) eqn:B.
  { rewrite (lor_add 5); [reflexivity| |reflexivity]. change (2 ^ 5) with 32. lia. }
  destruct (v <? 65536) eqn:C.
  { rewrite (lor_add 4); [reflexivity| |reflexivity]. change (2 ^ 4) with 16. lia. }
  assert (v / 262144 < 8) by lia.
  rewrite (N.mod_small (v / 262144)) by lia.
  rewrite (lor_add 3); [reflexivity|assumption|reflexivity].
Qed.
