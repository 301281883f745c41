(** Block scalars of token streams: values and ends. *)
From Verif Require Export BlockSem.
From Verif Require Import Utf8Facts History.
From Coq Require Import Lia ZifyBool ZifyN ZifyNat.
Open Scope nat_scope.

(** ** The end of the scalar *)
Lemma cut_char h c r : valid (c :: r) -> is_boundary (h :: c :: r) (width_byte c) = true -> width_byte c = 1.
Proof.
  intros V B. destruct (c <? 128)%N eqn:L; [unfold width_byte; rewrite L; reflexivity|exfalso].
  destruct (width_byte c) as [|k] eqn:W.
  - unfold valid, valid_utf8 in V. cbn [List.length valid_fuel utf8_char] in V. unfold width_byte, rng in W.
    unfold rng in V. rewrite L in V, W.
    repeat match type of W with (if ?x then _ else _) = _ => destruct x eqn:?; try discriminate end.
    repeat match type of V with context [if ?x then _ else _] => replace x with false in V by lia end. discriminate.
  - assert (B' : is_boundary (c :: r) k = true).
    { unfold is_boundary in B. cbn [nth_error List.length] in B. destruct k; [reflexivity|]. exact B. }
    assert (V' := valid_firstn _ _ V B').
    assert (K : k = 1 \/ k = 2 \/ k = 3).
    { unfold width_byte in W. rewrite L in W.
      repeat match type of W with (if ?x then _ else _) = _ => destruct x eqn:?; try discriminate end; lia. }
    unfold width_byte in W. rewrite L in W. unfold valid, valid_utf8 in V'.
    destruct K as [-> |[-> | ->]].
    + cbn [firstn List.length valid_fuel utf8_char] in V'. rewrite L in V'.
      destruct (rng 194 223 c), (rng 224 239 c), (rng 240 244 c); discriminate.
    + unfold rng in W. repeat match type of W with (if ?x then _ else _) = _ => destruct x eqn:?; try discriminate end.
      destruct r as [|d r]; cbn [firstn List.length valid_fuel utf8_char] in V'; unfold rng in V'; rewrite L in V';
      replace ((194 <=? c)%N && (c <=? 223)%N) with false in V' by lia;
      destruct ((224 <=? c)%N && (c <=? 239)%N), ((240 <=? c)%N && (c <=? 244)%N); discriminate.
    + unfold rng in W. repeat match type of W with (if ?x then _ else _) = _ => destruct x eqn:?; try discriminate end.
      destruct r as [|d [|e r]]; cbn [firstn List.length valid_fuel utf8_char] in V'; unfold rng in V'; rewrite L in V';
      replace ((194 <=? c)%N && (c <=? 223)%N) with false in V' by lia;
      replace ((224 <=? c)%N && (c <=? 239)%N) with false in V' by lia;
      destruct ((240 <=? c)%N && (c <=? 244)%N); discriminate.
Qed.

Lemma break_shapes s : break_len s <> 0 ->
  (exists r, s = 10%N :: r) \/ (exists r, s = 13%N :: r) \/ (exists r, s = 194%N :: 133%N :: r) \/ (exists x r, s = 226%N :: 128%N :: x :: r).
Proof.
  destruct s as [|a r]; [intros X; exfalso; apply X; reflexivity|]. cbn [break_len]. destruct (a =? 10)%N eqn:A; [left; exists r; f_equal; lia|].
  destruct (a =? 13)%N eqn:B; [right; left; exists r; f_equal; lia|]. destruct r as [|b r]; [congruence|].
  destruct ((a =? 194) && (b =? 133))%N eqn:C; [right; right; left; exists r; repeat f_equal; lia|].
  destruct r as [|c r]; [congruence|]. destruct ((a =? 226) && (b =? 128) && ((c =? 168) || (c =? 169)))%N eqn:D; [|congruence].
  intros _. right. right. right. exists c, r. assert (a = 226%N) as -> by lia. assert (b = 128%N) as -> by lia. reflexivity.
Qed.
Lemma margin_nil indent k n k' r : margin indent k n [] k' r -> n = 0 /\ r = [].
Proof. inversion 1; subst; auto. cbn in *. congruence. Qed.

Lemma margin_suffix indent k n s k' r : margin indent k n s k' r -> exists g, s = g ++ r.
Proof.
  induction 1 as [k s|k s|k n s k' r H M (g & ->)|k n s k' r H B M (g & E)].
  - exists []. reflexivity.
  - exists []. reflexivity.
  - exists (32%N :: g). reflexivity.
  - exists (firstn (break_len s) s ++ g). rewrite <- app_assoc, <- E, firstn_skipn. reflexivity.
Qed.
Lemma line_split s w r : line s w r -> s = w ++ r.
Proof. induction 1 as [|c s w r H B L ->]; [reflexivity|]. apply app_assoc. Qed.
Lemma line_no_feed s w r : line s w r -> ~ In 10%N w.
Proof.
  induction 1 as [|c s w r H B L IH]; [intros []|]. intros I. apply in_app_or in I as [I|I]; [|auto].
  unfold encode in *. destruct (c <? 128)%N eqn:C1; [|destruct (c <? 2048)%N eqn:C2; [|destruct (c <? 65536)%N eqn:C3]]; cbn [In] in I.
  - destruct I as [-> |[]]. discriminate B.
  - generalize dependent (c mod 64)%N. generalize dependent (c / 64)%N. intros; lia.
  - generalize dependent (c mod 64)%N. generalize dependent (c / 64 mod 64)%N. generalize dependent (c / 4096)%N. intros; lia.
  - generalize dependent (c mod 64)%N. generalize dependent (c / 64 mod 64)%N. generalize dependent (c / 4096 mod 64)%N. generalize dependent (c / 262144)%N. intros; lia.
Qed.
Lemma header_split s r : header_rest s r -> exists a, s = a ++ r.
Proof.
  induction 1 as [c s r B H (a & ->)|s w r L|s E].
  - exists (c :: a). reflexivity.
  - apply line_split in L. exists (w ++ firstn (break_len r) r). rewrite <- app_assoc, firstn_skipn. exact L.
  - exists (firstn (break_len s) s). symmetry. apply firstn_skipn.
Qed.
Lemma leading_spaces k m n s k' m' r : leading k m n s k' m' r -> n = 0 -> s = repeat 32%N (k' - k) ++ r /\ k <= k'.
Proof.
  induction 1 as [k m s|k m n s k' m' r H IH|]; intros E; [|destruct (IH E) as (-> & L)|discriminate].
  - rewrite Nat.sub_diag. split; [reflexivity|lia].
  - split; [|lia]. replace (k' - k) with (S (k' - S k)) by lia. reflexivity.
Qed.
Lemma slice_inv {E} s a b t : slice (E := E) s a b = Ok t ->
  a <= b /\ is_boundary s a = true /\ is_boundary s b = true /\ t = firstn (b - a) (skipn a s).
Proof.
  unfold slice. destruct (Nat.leb a b) eqn:L; [|discriminate]. destruct (is_boundary s a); [|discriminate]. destruct (is_boundary s b); [|discriminate].
  cbn [andb]. intros H. apply Nat.leb_le in L. repeat split; [lia|congruence].
Qed.
Lemma boundary_sub s a k : is_boundary s (a + k) = true -> 1 <= k -> is_boundary (skipn a s) k = true.
Proof.
  intros B K. unfold is_boundary in *. destruct (a + k) eqn:E; [lia|]. rewrite <- E in B. clear E. destruct k as [|k]; [reflexivity|].
  rewrite nth_error_skipn. rewrite skipn_length. destruct (nth_error s (a + S k)); [exact B|]. lia.
Qed.

Lemma chomp_owned base T h st n c : scan_chomp base T false (chomps h) st (List.length T) n = Ok c ->
  c = Owned (T ++ final_breaks h n).
Proof.
  unfold scan_chomp, chomps, final_breaks. intros H. apply bind_inv in H as (t & U & H). injection H as <-.
  unfold utf8_unwrap in U. f_equal. 
  match type of U with (if valid_utf8 ?x then _ else _) = _ => assert (E : t = x) by (destruct (valid_utf8 x); congruence) end.
  rewrite E. clear. destruct (existsb (N.eqb 43) h); [reflexivity|]. destruct (existsb (N.eqb 45) h).
  - rewrite firstn_all, app_nil_r. reflexivity.
  - destruct n; [rewrite firstn_all, app_nil_r; reflexivity|]. apply firstn_all2. rewrite app_length. cbn. lia.
Qed.
Lemma chomp_empty base h st k c : scan_chomp base (repeat 10%N k) false (chomps h) st 0 0 = Ok c ->
  c = Owned (if existsb (N.eqb 43) h then repeat 10%N k else []).
Proof.
  unfold scan_chomp, chomps. intros H. apply bind_inv in H as (t & U & H). injection H as <-.
  unfold utf8_unwrap in U. f_equal. 
  match type of U with (if valid_utf8 ?x then _ else _) = _ => assert (E : t = x) by (destruct (valid_utf8 x); congruence) end.
  rewrite E. clear. destruct (existsb (N.eqb 43) h); [apply app_nil_r|]. destruct (existsb (N.eqb 45) h); reflexivity.
Qed.
Lemma chomp_borrow base h start v n s1 c : valid base -> 
  scan_chomp base [] true (chomps h) start (start + List.length v) n = Ok c ->
  skipn start base = v ++ s1 -> skipn (start + List.length v) base = s1 -> n = 0 \/ break_len s1 <> 0 /\ n <> 0 ->
  c = Owned (v ++ final_breaks h n) \/
  exists y, c = Borrowed y /\ (y = v \/ n <> 0 /\ y = v ++ firstn 1 s1) /\ but_final_break (v ++ final_breaks h n) y /\
    (line_feeds_only s1 -> y = v ++ final_breaks h n \/ s1 = [10%N] /\ n <> 0 /\ y = v /\ v ++ final_breaks h n = y ++ [10%N] /\ existsb (N.eqb 43) h = false /\ existsb (N.eqb 45) h = false).
Proof.
  intros V H E1 E2 NB. 
  assert (EX : forall y, c = Borrowed y -> y = v -> final_breaks h n = [] ->
    exists y, c = Borrowed y /\ (y = v \/ n <> 0 /\ y = v ++ firstn 1 s1) /\ but_final_break (v ++ final_breaks h n) y /\
    (line_feeds_only s1 -> y = v ++ final_breaks h n \/ s1 = [10%N] /\ n <> 0 /\ y = v /\ v ++ final_breaks h n = y ++ [10%N] /\ existsb (N.eqb 43) h = false /\ existsb (N.eqb 45) h = false)).
  { intros y -> -> F. rewrite F, app_nil_r. exists v. split; [reflexivity|]. split; [|split].
    - auto.
    - exists v. auto.
    - auto. }
  assert (CUT : forall k, firstn (start + List.length v + k - start) (skipn start base) = v ++ firstn k s1).
  { intros k. replace (start + List.length v + k - start) with (List.length v + k) by lia. rewrite E1, firstn_app_2. reflexivity. }
  pose proof (CUT 0) as CUT0. rewrite Nat.add_0_r, firstn_O, app_nil_r in CUT0.
  unfold scan_chomp in H. unfold chomps in H. unfold final_breaks in *.
  destruct (existsb (N.eqb 43) h) eqn:KE; [|destruct (existsb (N.eqb 45) h) eqn:STR].
  - (* Keep *) destruct n as [|[|n]].
    + apply bind_inv in H as (t & SL & H). injection H as <-. apply slice_inv in SL as (_ & _ & _ & ->).
      rewrite CUT, firstn_O, app_nil_r in *. right. eapply EX; reflexivity.
    + apply bind_inv in H as (t & SL & H). injection H as <-. apply slice_inv in SL as (_ & B0 & B & ->).
      destruct NB as [NB|[NB _]]; [discriminate|]. right. eexists. split; [reflexivity|]. rewrite CUT. split; [auto|].
      pose proof (break_shapes _ NB) as SH.
      assert (BS : is_boundary s1 1 = true) by (rewrite <- E2; apply boundary_sub; [exact B|lia]).
      destruct SH as [(r & ->)|[(r & ->)|[(r & ->)|(x & r & ->)]]]; try discriminate BS; cbn [firstn repeat].
      * split; [exists v; auto|auto].
      * split; [exists v; auto|]. intros L. apply Forall_inv in L. exfalso. lia.
    + apply bind_inv in H as (t & SL & H). apply slice_inv in SL as (_ & _ & _ & ->). rewrite CUT0 in H.
      apply bind_inv in H as (t & U & H). injection H as <-. left. f_equal.
      unfold utf8_unwrap in U. destruct (valid_utf8 _) in U; [|discriminate].
      injection U as <-. cbn [app]. rewrite app_nil_r. reflexivity.
  - (* Strip *) apply bind_inv in H as (t & SL & H). injection H as <-. apply slice_inv in SL as (_ & _ & _ & ->).
    rewrite CUT0 in *. right. eapply EX; reflexivity.
  - (* Clip *) apply bind_inv in H as (e & He & H). apply bind_inv in H as (t & SL & H). injection H as <-.
    apply slice_inv in SL as (_ & B0 & B & ->). destruct n as [|n].
    + injection He as <-. rewrite CUT0 in *. right. eapply EX; reflexivity.
    + destruct NB as [NB|[NB _]]; [discriminate|].
      apply bind_inv in He as (tail & ST & He). apply slice_inv in ST as (LE & BE & _ & ->). rewrite E2 in He.
      rewrite firstn_all2 in He by (rewrite <- E2, skipn_length; lia).
      assert (e = start + List.length v + width_at s1 1) as -> by congruence. clear He. right.
      eexists. split; [reflexivity|]. rewrite CUT.
      pose proof (break_shapes _ NB) as SH.
      assert (BS : 1 <= width_at s1 1 -> is_boundary s1 (width_at s1 1) = true) by (intros; rewrite <- E2 at 1; apply boundary_sub; assumption).
      assert (VS : valid s1) by (rewrite <- E2; apply valid_skipn; [exact V|exact BE]).
      assert (ASC : forall d r, s1 = d :: r -> (d < 128)%N -> r = [] /\ width_at s1 1 = 0 \/ width_at s1 1 = 1).
      { intros d r -> D. destruct r as [|x r]; [left; auto|right]. 
        assert (VT : valid (x :: r)). { apply (valid_tail [d]); [|exact VS]. unfold valid, valid_utf8. cbn. rewrite (proj2 (N.ltb_lt _ _) D). reflexivity. }
        cbn [width_at nth_error] in *. apply (cut_char d x r VT). destruct (width_byte x); [reflexivity|]. apply BS. lia. }
      split.
      { assert (Z : width_at s1 1 = 0 \/ width_at s1 1 = 1).
        { destruct SH as [(r & ->)|[(r & ->)|[(r & ->)|(x & r & ->)]]]; [destruct (ASC _ _ eq_refl eq_refl) as [[_ Z]|Z]; auto..|left; reflexivity|left; reflexivity]. }
        destruct Z as [-> | ->]; [left; apply app_nil_r|right; auto]. }
      destruct SH as [(r & ->)|[(r & ->)|[(r & ->)|(x & r & ->)]]].
      * destruct (ASC _ _ eq_refl eq_refl) as [[-> ->]| ->]; cbn [firstn]; rewrite ?app_nil_r.
        -- split; [exists v; auto|]. intros _. right. auto 10.
        -- split; [exists v; auto|auto].
      * assert (BAD : forall X : Prop, line_feeds_only (13%N :: r) -> X) by (intros X L; apply Forall_inv in L; exfalso; lia).
        split; [|intros L; apply (BAD _ L)]. exists v. split; [auto|]. 
        destruct (ASC _ _ eq_refl eq_refl) as [[-> ->]| ->]; cbn [firstn]; rewrite ?app_nil_r; auto.
      * change (width_at (194%N :: 133%N :: r) 1) with 0. cbn [firstn]. rewrite app_nil_r. split; [exists v; auto|].
        intros L. apply Forall_inv in L. exfalso. lia.
      * change (width_at (226%N :: 128%N :: x :: r) 1) with 0. cbn [firstn]. rewrite app_nil_r. split; [exists v; auto|].
        intros L. apply Forall_inv in L. exfalso. lia.
Qed.

Lemma headers_place o base st0 b s ch ex b1 s1 : place base st0 b s -> scan_headers o b s = Ok (ch, ex, b1, s1) ->
  place base st0 b1 s1 /\ ex <> Some 0.
Proof.
  intros P H. unfold scan_headers in H. apply bind_inv in H as (u & _ & H). cbn zeta in H.
  match type of H with (let '(_, _) := ?x in _) = _ => destruct x as [ch' sk] end.
  apply bind_inv in H as ([b' s'] & A & H). destruct (place_adv _ _ _ _ _ _ _ P A) as (P' & _).
  assert (b1 = b') as -> by congruence. assert (s1 = s') as -> by congruence. split; [exact P'|].
  intros ->. match type of H with context [match ?x with Some _ => _ | None => None end] => destruct x as [[|d]|] end; discriminate.
Qed.
Lemma body_stop o base st0 indent fold b b' : runs (block_body o base st0 indent fold) b b' ->
  Nat.eqb (scol (f_st (b_f b))) indent && negb (is_empty (f_buf (b_f b))) = false -> b' = b.
Proof. intros R G. inversion R as [? ? B1|? ? ? B1]; subst; unfold block_body in B1; rewrite G in B1; congruence. Qed.
Lemma chomp_none base h start : start <> 0 -> forall c, scan_chomp base [] true h start 0 0 <> Ok c.
Proof.
  intros NZ c H. unfold scan_chomp in H. 
  destruct h; repeat (apply bind_inv in H as (? & ? & H)); 
  repeat match goal with X : Ok 0 = Ok ?e |- _ => injection X as <- | X : slice _ _ _ = Ok _ |- _ => apply slice_inv in X as (? & _) end; lia.
Qed.

Lemma block_sound o base st0 parent fold tok n st' : valid base ->
  scan_block_scalar_eager o base st0 parent fold = Ok (tok, n, st') ->
  exists c i s v, tok = TScalar c (if fold then Folded else Literal) /\ base = i :: s /\ n <= List.length base /\
    block fold parent s v (skipn n base) /\
    (forall y, c = Owned y -> y = v) /\
    (forall y, c = Borrowed y -> (exists a s1 k z, s = a ++ s1 /\ header_line a s1 /\ s1 = repeat 32%N k ++ y ++ z ++ skipn n base) /\ but_final_break v y /\
       (line_feeds_only base -> y = v \/ skipn n base = [] /\ v = y ++ [10%N] /\ last_line s y)).
Proof.
  intros V H. unfold scan_block_scalar_eager in H. apply bind_inv in H as ([[[ch ex] b1] s1] & HD & H).
  unfold block_header in HD. apply bind_inv in HD as (u & _ & HD). apply bind_inv in HD as ([ba sa] & A & HD).
  assert (P0 : place base st0 base st0) by (exists 0; repeat split; cbn; lia).
  destruct (place_adv _ _ _ _ _ _ _ P0 A) as (PA & EA & SA & BA).
  destruct base as [|i s] eqn:EB; [discriminate BA|]. rewrite <- EB in *. assert (ba = s) as -> by (rewrite EA, EB; reflexivity).
  apply bind_inv in HD as ([[[ch' ex'] bh] sh] & SH & HD). apply bind_inv in HD as ([bs ss] & SB & HD).
  apply bind_inv in HD as (u2 & _ & HD). destruct (is_wsZ bs) eqn:W; [|discriminate]. cbn [negb] in HD.
  apply bind_inv in HD as ([bl sl] & AL & HD).
  assert (ch' = ch) as -> by congruence. assert (ex' = ex) as -> by congruence. assert (bl = b1) as -> by congruence. assert (sl = s1) as -> by congruence. clear HD.
  destruct (headers_place _ _ _ _ _ _ _ _ _ PA SH) as [PH EX0].
  destruct (header_line_sound _ _ _ V _ _ _ _ _ _ PH SB W AL) as (PL & HR & C0).
  assert (START : 1 <= sread s1 - sread st0).
  { assert (P1 : place s sa s sa) by (exists 0; repeat split; cbn; lia).
    destruct (headers_place _ _ _ _ _ _ _ _ _ P1 SH) as [PH1 _].
    assert (VS : valid s) by (rewrite EA; apply valid_skipn; assumption).
    destruct (header_line_sound _ _ _ VS _ _ _ _ _ _ PH1 SB W AL) as (PL1 & _).
    destruct (place_at _ _ _ _ PL1) as [_ L]. rewrite SA in L. cbn in L. lia. }
  apply bind_inv in H as ([[[[indent b2] s2] l2] bo2] & HI & H). cbn zeta in H.
  destruct ex as [e|].
  { exfalso. assert (E0 : e <> 0) by congruence. injection HI as <- <- <- <- <-. cbn iota in H. apply bind_inv in H as (b' & L & H).
    apply loop_runs in L. apply body_stop in L.
    - subst b'. cbn [b_f b_start b_end b_lines f_scr f_bor] in H. apply bind_inv in H as (c & SC & _).
      apply chomp_none in SC; [exact SC|lia].
    - cbn [b_f f_st]. rewrite C0. replace (0 =? parent + e) with false by lia. reflexivity. }
  destruct (headers_sound _ _ _ V _ _ _ _ _ _ _ _ PA SH SB W eq_refl) as (h & IN & ES & -> & _).
  unfold detect_indent_level in HI. apply bind_inv in HI as ([[[[b3 s3] bo3] l3] m] & LD & HI). apply loop_runs in LD.
  assert (b3 = b2) as -> by congruence. assert (s3 = s2) as -> by congruence. assert (bo3 = bo2) as -> by congruence. assert (l3 = l2) as -> by congruence.
  assert (indent = Nat.max m (S parent)) as ->.
  { assert (X : indent = if m <? parent + 1 then parent + 1 else m) by congruence. rewrite X. destruct (m <? parent + 1) eqn:Y; lia. }
  clear HI. destruct (detect_sound _ _ _ V _ _ LD _ _ _ _ _ _ _ _ _ _ eq_refl eq_refl PL C0) as (P2 & (n2 & EL & LE) & BO & BO2).
  cbn [Nat.add] in EL. subst n2.
  assert (START2 : 1 <= sread s2 - sread st0).
  { assert (P1 : place b1 s1 b1 s1) by (exists 0; repeat split; cbn; lia).
    assert (VB := place_valid _ _ V _ _ PL).
    destruct (detect_sound _ b1 s1 VB _ _ LD _ _ _ _ _ _ _ _ _ _ eq_refl eq_refl P1 C0) as (P1' & _).
    destruct (place_at _ _ _ _ P1') as [_ L]. lia. }
  match type of H with context [if bo2 then (?x, []) else ?y] => 
    assert (ST : exists start scratch, (if bo2 then (x, []) else y) = (start, scratch) /\
       start = (if bo2 then x else 0) /\ scratch = (if bo2 then [] else repeat 10%N l2)) by (destruct bo2; eexists _, _; repeat split) end.
  destruct ST as (start & scratch & ST1 & EST & ESC). rewrite ST1 in H. clear ST1.
  apply bind_inv in H as (b' & LB & H). apply loop_runs in LB. apply bind_inv in H as (c & SC & H).
  assert (tok = TScalar c (if fold then Folded else Literal)) as -> by congruence.
  assert (n = consumed base (f_buf (b_f b'))) as -> by congruence. clear H.
  assert (CON : forall b st, place base st0 b st -> consumed base b <= List.length base /\ skipn (consumed base b) base = b).
  { intros b st (k & K & -> & _). unfold consumed. rewrite skipn_length. split; [lia|]. f_equal. lia. }
  exists c, i, s. 
  destruct (Nat.eqb (scol s2) (Nat.max m (S parent)) && negb (is_empty b2)) eqn:G.
  - apply andb_prop in G as [G1 G2]. apply Nat.eqb_eq in G1. assert (NE : b2 <> []) by (destruct b2; discriminate).
    assert (L0 : bo2 = true -> l2 = 0) by (intros X; destruct (BO X) as [_ [Y|Y]]; lia).
    destruct (lines_sound _ _ _ V _ _ _ _ LB (if bo2 then [] else repeat 10%N l2)) as (v & TL & P' & BF & BT).
    { exact P2. }
    { unfold texts. cbn [b_f f_bor f_scr b_start b_lines f_st b_end]. destruct bo2; [|exact ESC]. split; [exact ESC|]. split; [lia|]. left. auto. }
    { lia. }
    { exact G1. }
    { exact NE. }
    cbn [b_f f_buf f_bor b_lines b_start] in TL, BF, BT.
    destruct (CON _ _ P') as [CL CS]. rewrite CS.
    exists (repeat 10%N l2 ++ v ++ final_breaks h (b_lines b')).
    split; [reflexivity|]. split; [congruence|]. split; [exact CL|]. split.
    { rewrite ES. rewrite G1 in LE. eapply bk_lines; [exact IN|exact HR|exact LE|exact NE|exact TL]. }
    destruct (f_bor (b_f b')) eqn:FB.
    + destruct (BT eq_refl) as (Y1 & _ & _ & Y4 & Y5 & Y6 & x1 & Y7 & Y8 & YL & Y9). subst bo2. rewrite (L0 eq_refl). cbn [repeat app].
      rewrite Y4, Y6 in SC. apply (chomp_borrow _ _ _ v _ x1) in SC; [|exact V|exact Y8|rewrite <- Y6; exact Y7|].
      2: { destruct Y9 as [(_ & _ & Y9)|(Y9 & ? & ? & Y10 & _)]; [auto|right]. split; [exact Y9|lia]. }
      destruct SC as [-> |(y & -> & YK & NF & LF)].
      * split; [intros y E; congruence|discriminate].
      * split; [discriminate|]. intros y' E. injection E as <-. split; [|split; [exact NF|]].
        -- assert (CH : exists z, v ++ x1 = y ++ z ++ f_buf (b_f b')).
           { destruct Y9 as [(X1 & X2 & X3)|(X1 & n' & k' & X2 & M)].
             - destruct YK as [-> |[YK _]]; [|congruence]. exists []. rewrite X1, X2. reflexivity.
             - destruct (margin_suffix _ _ _ _ _ _ M) as (g & EG).
               assert (XS : x1 = firstn 1 x1 ++ (skipn 1 (firstn (break_len x1) x1) ++ g) ++ f_buf (b_f b')).
               { rewrite <- (firstn_skipn (break_len x1) x1) at 1. rewrite EG, !app_assoc. f_equal. f_equal.
                 rewrite <- (firstn_skipn 1 (firstn (break_len x1) x1)) at 1. f_equal. rewrite firstn_firstn. f_equal. lia. }
               destruct YK as [-> |[_ ->]].
               + exists (firstn 1 x1 ++ skipn 1 (firstn (break_len x1) x1) ++ g). f_equal. rewrite XS at 1. rewrite <- !app_assoc. reflexivity.
               + exists (skipn 1 (firstn (break_len x1) x1) ++ g). rewrite <- app_assoc. f_equal. exact XS. }
           destruct CH as (z & CH). destruct (header_split _ _ HR) as (a & EA').
           exists (h ++ a), b1, (scol s2), z. split; [rewrite ES, EA', app_assoc; reflexivity|].
           split; [exists h, a; split; [reflexivity|]; split; [exact IN|]; rewrite <- EA'; exact HR|].
           rewrite (L0 eq_refl) in LE. destruct (leading_spaces _ _ _ _ _ _ _ LE eq_refl) as (LE' & _). clear LE. rename LE' into LE. rewrite Nat.sub_0_r in LE. rewrite LE. f_equal.
           rewrite <- CH, <- Y8, Y5, EST. symmetry. apply (place_at _ _ _ _ P2).
        -- intros LO. destruct LF as [LF|(LF1 & LF0 & LFv & LF2 & LK & LS)].
           ++ unfold line_feeds_only in *. rewrite <- (firstn_skipn (b_end b') base), Y7 in LO. apply Forall_app in LO. apply LO.
           ++ auto.
           ++ right. split; [|split; [exact LF2|]].
              2: { exists h, bh, (scol s2). split; [exact ES|]. split.
                   { destruct IN as [<-|[<-|[<-|[<-|[<-|[<-|[<-|[<-|[]]]]]]]]]; try discriminate LK; try discriminate LS; auto. }
                   split; [|rewrite LFv; apply (line_no_feed _ _ _ YL)].
                   rewrite (L0 eq_refl) in LE. destruct (leading_spaces _ _ _ _ _ _ _ LE eq_refl) as (LE' & _). rewrite Nat.sub_0_r in LE'.
                   rewrite LFv, <- LF1, <- Y8, Y5, EST, (proj1 (place_at _ _ _ _ P2)), <- LE'. exact HR. }
              subst x1. rewrite LF1 in Y9. destruct Y9 as [(_ & _ & Y9)|(_ & n' & k' & _ & M)].
              ** congruence.
              ** cbn in M. apply margin_nil in M. apply M.
    + destruct (BF eq_refl) as [Y1 Y2]. rewrite Y2, Y1 in SC. apply chomp_owned in SC. subst c. split; [|discriminate].
      intros y E. injection E as <-.
      assert (X : joint fold 0 = []) by (destruct fold; reflexivity). rewrite X. cbn [app]. rewrite <- app_assoc. f_equal.
      destruct bo2; [|reflexivity]. rewrite (L0 eq_refl). reflexivity.
  - apply body_stop in LB; [|exact G]. subst b'. cbn [b_f f_buf b_start b_end b_lines f_scr f_bor] in *.
    destruct (CON _ _ P2) as [CL CS]. rewrite CS. exists (if existsb (N.eqb 43) h then repeat 10%N l2 else []).
    split; [reflexivity|]. split; [congruence|]. split; [exact CL|]. split.
    { rewrite ES. eapply bk_empty; [exact IN|exact HR|exact LE|].
      apply andb_false_iff in G as [G|G]; [left; apply Nat.eqb_neq in G; exact G|right; destruct b2; [reflexivity|discriminate]]. }
    destruct bo2; subst scratch start.
    + apply chomp_none in SC; [contradiction|lia].
    + apply chomp_empty in SC. subst c. split; [intros y E; injection E as <-; reflexivity|discriminate].
Qed.
