(** What block scalars stand for: soundness of the eager scanner. *)
From Verif Require Export QuotedFacts SpecBlock.
From Verif Require Import Utf8Facts History.
From Coq Require Import Lia ZifyBool ZifyN ZifyNat.
Open Scope nat_scope.

Lemma breakZ_iff s : is_breakZ s = true <-> s = [] \/ break_len s <> 0.
Proof.
  unfold is_breakZ. rewrite orb_true_iff, is_break_iff. destruct s; cbn [is_empty]; split; intros [H|H]; auto; discriminate.
Qed.
Lemma not_breakZ s : is_breakZ s = false -> s <> [] /\ break_len s = 0.
Proof.
  intros H. split; [intros ->; discriminate|]. destruct (Nat.eq_dec (break_len s) 0) as [E|E]; [exact E|].
  assert (is_breakZ s = true) by (apply breakZ_iff; auto). congruence.
Qed.
Lemma char_ascii c : (c < 128)%N -> encode c = [c].
Proof. intros H. unfold encode. replace (c <? 128)%N with true by lia. reflexivity. Qed.

Section Block.
  Variables (o : flags) (base : str) (st0 : stats).
  Hypothesis V : valid base.

  Definition place (b : str) (s : stats) : Prop :=
    exists k, k <= List.length base /\ b = skipn k base /\ is_boundary base k = true /\ sread s = sread st0 + k.
  Lemma place_valid b s : place b s -> valid b.
  Proof. intros (k & K & -> & B & _). apply valid_skipn; assumption. Qed.
  Lemma place_adv b s n b' s' : place b s -> adv b s n = Ok (b', s') ->
    place b' s' /\ b' = skipn n b /\ s' = supd s n 0 n /\ is_boundary b n = true.
  Proof.
    intros (k & K & E & B & R) A. apply adv_ok in A as (-> & -> & B'). repeat split; auto.
    assert (L := boundary_le _ _ B'). rewrite E, skipn_length in L.
    exists (k + n). split; [lia|]. split; [rewrite E; apply skipn_skipn|]. split; [|cbn; lia].
    apply boundary_add; [exact B|]. rewrite <- E. exact B'.
  Qed.
  Lemma place_line b s b' s' : place b s -> adv_line b s = Ok (b', s') ->
    place b' s' /\ b' = skipn (break_len b) b /\ s' = supd s (break_len b) 1 0.
  Proof.
    intros (k & K & E & B & R) A. apply adv_line_ok in A as (-> & -> & B'). rewrite break_len_amt. repeat split; auto.
    assert (L := boundary_le _ _ B'). rewrite E, skipn_length in L.
    exists (k + break_amt b). split; [rewrite E; lia|]. split; [rewrite E at 2; apply skipn_skipn|]. split; [|cbn; lia].
    apply boundary_add; [exact B|]. rewrite <- E. exact B'.
  Qed.

  (** One ASCII character. *)
  Lemma place_one b s b' s' : place b s -> b <> [] -> adv b s 1 = Ok (b', s') ->
    exists c, b = c :: b' /\ (c < 128)%N /\ place b' s' /\ s' = supd s 1 0 1.
  Proof.
    intros P NE A. destruct (place_adv _ _ _ _ _ P A) as (P' & -> & -> & B).
    assert (VB := place_valid _ _ P). destruct b as [|c r]; [congruence|]. exists c.
    split; [reflexivity|]. split; [exact (QuotedFacts.ascii_head c r VB B)|auto].
  Qed.
  Lemma line_cons c s w r : (c < 128)%N -> break_len (c :: s) = 0 -> line s w r -> line (c :: s) (c :: w) r.
  Proof.
    intros A B L. pose proof (ln_char c s w r (scalar_ascii _ A)) as K. rewrite (char_ascii c A) in K. exact (K B L).
  Qed.

  (** The contents of a line. *)
  Lemma line_sound s s' : runs (block_line_body o) s s' -> place (f_buf s) (f_st s) ->
    place (f_buf s') (f_st s') /\ f_bor s' = f_bor s /\ (f_buf s' = [] \/ break_len (f_buf s') <> 0) /\
    exists w, line (f_buf s) w (f_buf s') /\ f_buf s = w ++ f_buf s' /\
      f_scr s' = (if f_bor s then f_scr s else f_scr s ++ w) /\
      sread (f_st s') = sread (f_st s) + List.length w /\ scol (f_st s') = scol (f_st s) + List.length w.
  Proof.
    induction 1 as [s s' B|s s1 s' B R IH]; intros P; unfold block_line_body in B.
    - destruct (is_breakZ (f_buf s)) eqn:Z.
      + assert (s' = s) as -> by congruence. apply breakZ_iff in Z. split; [exact P|]. split; [reflexivity|]. split; [exact Z|].
        exists []. split; [apply ln_end, Z|]. split; [reflexivity|]. rewrite app_nil_r. cbn [List.length].
        split; [destruct (f_bor s); reflexivity|lia].
      + apply bind_inv in B as (u & _ & B). apply bind_inv in B as (s1 & _ & B). discriminate.
    - destruct (is_breakZ (f_buf s)) eqn:Z; [discriminate|]. apply not_breakZ in Z as [NE BL].
      apply bind_inv in B as (u & _ & B). apply bind_inv in B as (s2 & A & B). assert (s1 = s2) as -> by congruence.
      assert (EB : f_buf (f_push_head s) = f_buf s /\ f_st (f_push_head s) = f_st s /\ f_bor (f_push_head s) = f_bor s /\
                   f_scr (f_push_head s) = if f_bor s then f_scr s else f_scr s ++ firstn 1 (f_buf s)).
      { unfold f_push_head. destruct (f_bor s) eqn:X; cbn [f_push f_buf f_st f_bor f_scr]; auto. }
      destruct EB as (E1 & E2 & E3 & E4).
      unfold f_adv in A. apply bind_inv in A as ([b' st'] & A & X). rewrite E1, E2 in A.
      assert (s2 = mkF b' st' (f_scr (f_push_head s)) (f_bor (f_push_head s))) as -> by congruence. clear X.
      destruct (place_one _ _ _ _ P NE A) as (c & EC & CA & P' & ST).
      cbn [f_buf f_st f_bor f_scr] in IH. destruct (IH P') as (P2 & BO & EN & w & L & EW & SC & RD & CO).
      split; [exact P2|]. split; [congruence|]. split; [exact EN|]. exists (c :: w). rewrite EC in *.
      split; [apply line_cons; [exact CA|exact BL|exact L]|].
      split; [cbn [app]; f_equal; exact EW|].
      split; [rewrite SC, E3, E4; destruct (f_bor s); [reflexivity|]; rewrite <- app_assoc; reflexivity|].
      rewrite RD, CO, ST. cbn. lia.
  Qed.

  (** The rest of the header line. *)
  Lemma comment_sound p q : runs (skip_line_body o) p q -> place (fst p) (snd p) ->
    place (fst q) (snd q) /\ (fst q = [] \/ break_len (fst q) <> 0) /\ exists w, line (fst p) w (fst q).
  Proof.
    induction 1 as [[b s] q B|[b s] p q B R IH]; intros P; unfold skip_line_body in B; cbn [fst snd] in *.
    - destruct (is_breakZ b) eqn:Z.
      + assert (q = (b, s)) as -> by congruence. cbn [fst snd]. apply breakZ_iff in Z.
        split; [exact P|]. split; [exact Z|]. exists []. apply ln_end, Z.
      + apply bind_inv in B as (u & _ & B). apply bind_inv in B as (s1 & _ & B). discriminate.
    - destruct (is_breakZ b) eqn:Z; [discriminate|]. apply not_breakZ in Z as [NE BL].
      apply bind_inv in B as (u & _ & B). apply bind_inv in B as ([b' s'] & A & B). assert (p = (b', s')) as -> by congruence.
      destruct (place_one _ _ _ _ P NE A) as (c & -> & CA & P' & ST). cbn [fst snd] in IH.
      destruct (IH P') as (P2 & EN & w & L). split; [exact P2|]. split; [exact EN|]. exists (c :: w).
      apply line_cons; [exact CA|exact BL|exact L].
  Qed.
  Lemma blanks_sound p q : runs (skip_blank_body o) p q -> place (fst p) (snd p) ->
    place (fst q) (snd q) /\ is_blank (fst q) = false /\ (forall r, header_rest (fst q) r -> header_rest (fst p) r).
  Proof.
    induction 1 as [[b s] q B|[b s] p q B R IH]; intros P; unfold skip_blank_body in B; cbn [fst snd] in *.
    - destruct (is_blank b) eqn:Z.
      + apply bind_inv in B as (u & _ & B). apply bind_inv in B as (s1 & _ & B). discriminate.
      + assert (q = (b, s)) as -> by congruence. cbn [fst snd]. auto.
    - destruct (is_blank b) eqn:Z; [|discriminate].
      apply bind_inv in B as (u & _ & B). apply bind_inv in B as ([b' s'] & A & B). assert (p = (b', s')) as -> by congruence.
      apply is_blank_iff in Z as (c & r & -> & BC). cbn [fst snd] in IH.
      destruct (place_one _ _ _ _ P ltac:(discriminate) A) as (c' & E & _ & P' & _). injection E as <- <-.
      destruct (IH P') as (P2 & EN & K). split; [exact P2|]. split; [exact EN|]. intros r' H. apply hr_blank; auto.
  Qed.
  Lemma header_line_sound b s b1 s1 b2 s2 : place b s -> skip_blanks o b s = Ok (b1, s1) -> is_wsZ b1 = true ->
    adv_line b1 s1 = Ok (b2, s2) -> place b2 s2 /\ header_rest b b2 /\ scol s2 = 0.
  Proof.
    intros P H W A. unfold skip_blanks in H. apply bind_inv in H as (u & _ & H).
    apply bind_inv in H as ([b0 s0] & L & H). apply loop_runs in L.
    destruct (blanks_sound _ _ L P) as (P0 & NB & K). cbn [fst snd] in *.
    destruct (at_is b0 0 35) eqn:HA.
    - apply loop_runs in H. destruct (comment_sound _ _ H P0) as (P1 & EN & w & LN). cbn [fst snd] in *.
      destruct (place_line _ _ _ _ P1 A) as (P2 & E & ST).
      split; [exact P2|]. split; [|rewrite ST; reflexivity]. apply K.
      apply at_is_cons in HA as (r & ->). rewrite E.
      eapply hr_comment, LN.
    - assert (b1 = b0) as -> by congruence. assert (s1 = s0) as -> by congruence.
      destruct (place_line _ _ _ _ P0 A) as (P2 & E & ST). split; [exact P2|]. split; [|rewrite ST; reflexivity].
      apply K. rewrite E. apply hr_end. apply wsZ_iff in W as [->|W]; [auto|right].
      destruct W as [X|X]; [|exact X]. apply is_blank_iff in X. congruence.
  Qed.

  (** Chomping and indentation indicators. *)
  Definition chomps (h : str) : chomp_style :=
    if existsb (N.eqb 43) h then Keep else if existsb (N.eqb 45) h then Strip else Clip.
  Lemma headers_sound b s ch ex b1 s1 b2 s2 : place b s -> scan_headers o b s = Ok (ch, ex, b1, s1) ->
    skip_blanks o b1 s1 = Ok (b2, s2) -> is_wsZ b2 = true -> ex = None ->
    exists h, In h headers /\ b = h ++ b1 /\ ch = chomps h /\ place b1 s1.
  Proof.
    intros P H SB W ->. unfold scan_headers in H. apply bind_inv in H as (u & _ & H).
    assert (BAD : forall c r, b1 = c :: r -> c = 43%N \/ c = 45%N \/ is_digit c = true -> False).
    { intros c r -> CC.
      assert (NB : is_blank (c :: r) = false).
      { unfold is_blank, at_is. cbn [nth_error]. unfold is_digit in CC. lia. }
      assert (N35 : c <> 35%N) by (unfold is_digit in CC; lia).
      assert (NW : is_wsZ (c :: r) = false).
      { unfold is_wsZ, is_break, break_amt. rewrite NB. unfold is_digit in *. cbn [is_empty].
        replace (c =? 13)%N with false by lia. replace (c =? 10)%N with false by lia.
        replace (c =? 194)%N with false by lia. replace (c =? 226)%N with false by lia. reflexivity. } unfold skip_blanks in SB. apply bind_inv in SB as (u2 & _ & SB).
      apply bind_inv in SB as ([b0 s0] & L & SB). apply loop_runs in L.
      inversion L as [? ? B|? ? ? B]; subst; unfold skip_blank_body in B; rewrite NB in B; [|discriminate].
      assert (b0 = c :: r) as -> by congruence. unfold at_is in SB. cbn [nth_error] in SB.
      replace (c =? 35)%N with false in SB by lia. assert (b2 = c :: r) as -> by congruence. congruence. }
    Ltac fin h := match goal with
      | P : place ?b _, H : (let* _ := adv ?b ?s _ in _) = _ |- _ =>
        apply bind_inv in H as ([b' s'] & A & H); destruct (place_adv _ _ _ _ _ P A) as (P' & E & _);
        match goal with b1 : str, s1 : stats, ch : chomp_style |- exists _, _ => idtac end;
        injection H as <- <- <-; exists h; split; [cbn; tauto|]; split; [rewrite E; reflexivity|]; split; [reflexivity|exact P']
      end.
    assert (CL : forall c, (c = 43 /\ is_digit c = false \/ c = 45 /\ is_digit c = false \/ is_digit c = true /\ c = 48 \/
              is_digit c = true /\ c <> 48 /\ c <> 43 /\ c <> 45 \/ is_digit c = false /\ c <> 43 /\ c <> 45)%N).
    { intros c. unfold is_digit. lia. }
    destruct b as [|c0 [|c1 b]].
    - apply bind_inv in H as ([b' s'] & A & H). destruct (place_adv _ _ _ _ _ P A) as (P' & E & _).
      assert (b1 = b') as -> by congruence. assert (s1 = s') as -> by congruence. assert (ch = Clip) as -> by congruence.
      exists []. split; [cbn; auto|]. split; [rewrite E; reflexivity|]. split; [reflexivity|exact P'].
    - unfold at_is in H. cbn [nth_error orb] in H. rewrite !orb_false_r in H.
      destruct (CL c0) as [(-> & D)|[(-> & D)|[(D & ->)|[(D & N1 & N2 & N3)|(D & N1 & N2)]]]]; rewrite D in H;
      repeat match type of H with context [(?x =? ?y)%N] => 
        first [replace (x =? y)%N with true in H by lia | replace (x =? y)%N with false in H by lia] end; cbn [Nat.add] in H.
      + fin [43%N].
      + fin [45%N].
      + change (N.to_nat (48 - 48)) with 0 in H. fin [48%N].
      + exfalso. apply bind_inv in H as ([b' s'] & A & H). assert (X : N.to_nat (c0 - 48) <> 0) by (unfold is_digit in D; lia).
        destruct (N.to_nat (c0 - 48)); [congruence|discriminate].
      + fin ([] : str).
    - unfold at_is in H. cbn [nth_error orb] in H.
      destruct (CL c0) as [(-> & D)|[(-> & D)|[(D & ->)|[(D & N1 & N2 & N3)|(D & N1 & N2)]]]]; rewrite D in H;
      destruct (CL c1) as [(-> & D')|[(-> & D')|[(D' & ->)|[(D' & M1 & M2 & M3)|(D' & M1 & M2)]]]]; rewrite ?D' in H;
      repeat match type of H with context [(?x =? ?y)%N] => 
        first [replace (x =? y)%N with true in H by lia | replace (x =? y)%N with false in H by lia] end; cbn [Nat.add orb] in H;
      change (N.to_nat (48 - 48)) with 0 in H;
      first [ exfalso; apply bind_inv in H as ([b' s'] & A & H);
              try (assert (X : N.to_nat (c0 - 48) <> 0) by (unfold is_digit in D; lia);
                   destruct (N.to_nat (c0 - 48)); [congruence|discriminate]);
              try (assert (X : N.to_nat (c1 - 48) <> 0) by (unfold is_digit in D'; lia);
                   destruct (N.to_nat (c1 - 48)); [congruence|discriminate]);
              destruct (place_adv _ _ _ _ _ P A) as (P' & E & _); cbn [skipn] in E; injection H as <- <- <-;
              (eapply BAD; [exact E|auto; fail])
            | fin ([] : str) | fin [43%N] | fin [45%N] | fin [48%N] | fin [43%N; 48%N] | fin [45%N; 48%N] | fin [48%N; 43%N] | fin [48%N; 45%N] ].
  Qed.

  (** Leading lines. *)
  Lemma spaces_sound lines p q : runs (detect_space_body o lines) p q -> forall b s bo b' s' bo',
    p = (b, s, bo) -> q = (b', s', bo') -> place b s ->
    place b' s' /\ is_blank b' = false /\ (bo' = true -> bo = true /\ (lines = 0 \/ s' = s)) /\
    (bo = true -> lines = 0 -> bo' = true) /\ (bo = false -> bo' = false) /\
    forall m n k' m' r, leading (scol s') m n b' k' m' r -> leading (scol s) m n b k' m' r.
  Proof.
    induction 1 as [p q B|p p1 q B R IH]; intros b s bo b' s' bo' -> -> P; unfold detect_space_body in B.
    - destruct (is_blank b) eqn:Z.
      + apply bind_inv in B as (u & _ & B). destruct (at_is b 0 9); [discriminate|]. apply bind_inv in B as ([b1 s1] & _ & B). discriminate.
      + assert (b' = b) as -> by congruence. assert (s' = s) as -> by congruence. assert (bo' = bo) as -> by congruence.
        repeat (split; [auto|]). auto.
    - destruct (is_blank b) eqn:Z; [|discriminate]. apply bind_inv in B as (u & _ & B). destruct (at_is b 0 9) eqn:T; [discriminate|].
      apply bind_inv in B as ([b1 s1] & A & B). injection B as <-.
      assert (SP : exists r, b = 32%N :: r).
      { unfold is_blank in Z. rewrite T, orb_false_r in Z. apply at_is_cons in Z. exact Z. }
      destruct SP as (r & ->). destruct (place_one _ _ _ _ P ltac:(discriminate) A) as (c & E & _ & P1 & ST). injection E as <- <-.
      destruct (IH _ _ _ _ _ _ eq_refl eq_refl P1) as (P2 & NB & BO & BO2 & BO3 & K).
      split; [exact P2|]. split; [exact NB|]. split; [|split; [|split]].
      + intros X. destruct (BO X) as [Y _]. destruct bo; [|discriminate]. split; [reflexivity|].
        destruct lines; [auto|discriminate].
      + intros -> ->. apply BO2; reflexivity.
      + intros ->. apply BO3. reflexivity.
      + intros m n k' m' r' L. apply ld_space. specialize (K m n k' m' r' L). rewrite ST in K.
        replace (scol (supd s 1 0 1)) with (S (scol s)) in K by (cbn; lia). exact K.
  Qed.
  Lemma detect_sound p q : runs (detect_body o) p q -> forall b s bo l m b' s' bo' l' m',
    p = (b, s, bo, l, m) -> q = (b', s', bo', l', m') -> place b s -> scol s = 0 ->
    place b' s' /\ (exists n, l' = l + n /\ leading 0 m n b (scol s') m' b') /\
    (bo' = true -> bo = true /\ (l' = 0 \/ scol s' = 0)) /\ (bo = true -> l' = 0 -> bo' = true).
  Proof.
    induction 1 as [p q B|p p1 q B R IH]; intros b s bo l m b' s' bo' l' m' -> -> P C0; unfold detect_body in B.
    all: apply bind_inv in B as (u & _ & B); apply bind_inv in B as ([[b1 s1] bo1] & L & B); apply loop_runs in L;
      destruct (spaces_sound _ _ _ L _ _ _ _ _ _ eq_refl eq_refl P) as (P1 & NB & BO & BO2 & BO3 & K); rewrite C0 in K;
      apply bind_inv in B as (u2 & _ & B); destruct (is_break b1) eqn:BR; cbn [negb] in B.
    - apply bind_inv in B as ([b2 s2] & _ & B). discriminate.
    - assert (b' = b1) as -> by congruence. assert (s' = s1) as -> by congruence. assert (bo' = bo1) as -> by congruence.
      assert (l' = l) as -> by congruence. assert (m' = Nat.max m (scol s1)) as ->.
      { assert (X : m' = if m <? scol s1 then scol s1 else m) by congruence. rewrite X. destruct (m <? scol s1) eqn:Y; lia. }
      split; [exact P1|]. split; [|split].
      + exists 0. rewrite Nat.add_0_r. split; [reflexivity|]. apply K, ld_end, not_white. unfold is_ws. rewrite NB, BR. reflexivity.
      + intros X. destruct (BO X) as [Y [Z|Z]]; [auto|]. rewrite Z. auto.
      + auto.
    - apply bind_inv in B as ([b2 s2] & A & B).
      assert (p1 = (b2, s2, bo1, S l, if m <? scol s1 then scol s1 else m)) as -> by congruence.
      destruct (place_line _ _ _ _ P1 A) as (P2 & E2 & ST2).
      destruct (IH _ _ _ _ _ _ _ _ _ _ eq_refl eq_refl P2 ltac:(rewrite ST2; reflexivity)) as (P' & (n & EL & LD) & BO' & BO2').
      split; [exact P'|]. split; [|split].
      + exists (S n). split; [lia|]. apply K. apply ld_break; [apply is_break_iff, BR|]. rewrite <- E2.
        replace (Nat.max m (scol s1)) with (if m <? scol s1 then scol s1 else m) by (destruct (m <? scol s1) eqn:Y; lia). exact LD.
      + intros X. destruct (BO' X) as [Y Z]. destruct (BO Y) as [Y2 _]. auto.
      + intros X Y. lia.
    - discriminate.
  Qed.

  (** Indentation of further lines. *)
  Lemma indent_sound indent p q : runs (scan_indent_body o indent) p q -> forall b s l b' s' l',
    p = (b, s, l) -> q = (b', s', l') -> place b s -> scol s <= indent ->
    place b' s' /\ exists n, l' = l + n /\ margin indent (scol s) n b (scol s') b'.
  Proof.
    induction 1 as [p q B|p p1 q B R IH]; intros b s l b' s' l' -> -> P C; unfold scan_indent_body in B;
      destruct (Nat.ltb (scol s) indent && is_ws b) eqn:G.
    - apply bind_inv in B as (x & _ & B). apply bind_inv in B as (u & _ & B). discriminate.
    - assert (b' = b) as -> by congruence. assert (s' = s) as -> by congruence. assert (l' = l) as -> by congruence.
      split; [exact P|]. exists 0. rewrite Nat.add_0_r. split; [reflexivity|].
      apply andb_false_iff in G as [G|G]; [apply mg_full; apply Nat.ltb_ge in G; exact G|].
      destruct (Nat.ltb_spec (scol s) indent); [apply mg_end; [assumption|apply not_white, G]|apply mg_full; assumption].
    - apply andb_prop in G as [G W]. apply Nat.ltb_lt in G.
      apply bind_inv in B as (x & A & B). apply bind_inv in B as (u & _ & B). assert (p1 = x) as -> by congruence.
      destruct (at_is b 0 32) eqn:SP.
      + apply bind_inv in A as ([b1 s1] & A & X). assert (x = (b1, s1, l)) as -> by congruence.
        apply at_is_cons in SP as (r & ->). destruct (place_one _ _ _ _ P ltac:(discriminate) A) as (c & E & _ & P1 & ST).
        injection E as <- <-.
        destruct (IH _ _ _ _ _ _ eq_refl eq_refl P1) as (P2 & n & EL & M); [rewrite ST; cbn; lia|].
        split; [exact P2|]. exists n. split; [exact EL|]. apply mg_space; [exact G|]. rewrite ST in M.
        replace (scol (supd s 1 0 1)) with (S (scol s)) in M by (cbn; lia). exact M.
      + destruct (at_is b 0 9) eqn:TB; [discriminate|]. destruct (is_break b) eqn:BR.
        * apply bind_inv in A as ([b1 s1] & A & X). assert (x = (b1, s1, S l)) as -> by congruence.
          destruct (place_line _ _ _ _ P A) as (P1 & E1 & ST).
          destruct (IH _ _ _ _ _ _ eq_refl eq_refl P1) as (P2 & n & EL & M); [rewrite ST; cbn; lia|].
          split; [exact P2|]. exists (S n). split; [lia|]. apply mg_break; [exact G|apply is_break_iff, BR|].
          rewrite <- E1. rewrite ST in M. exact M.
        * exfalso. unfold is_ws, is_blank in W. rewrite SP, TB, BR in W. discriminate.
    - discriminate.
  Qed.

  (** ** The lines *)
  Definition texts (b : bstate) (T : str) : Prop :=
    if f_bor (b_f b) then
      f_scr (b_f b) = [] /\ b_start b <> 0 /\
      (b_lines b = 0 /\ T = [] /\ b_start b = sread (f_st (b_f b)) - sread st0 \/
       b_lines b <> 0 /\ T = firstn (b_end b - b_start b) (skipn (b_start b) base))
    else f_scr (b_f b) = T.
  Lemma place_at b s : place b s -> skipn (sread s - sread st0) base = b /\ sread st0 <= sread s.
  Proof. intros (k & K & -> & _ & R). replace (sread s - sread st0) with k by lia. split; [reflexivity|lia]. Qed.

  Lemma round_sound indent fold b b1 T : block_body o base st0 indent fold b = Ok (Next b1) ->
    place (f_buf (b_f b)) (f_st (b_f b)) -> texts b T -> 1 <= indent ->
    scol (f_st (b_f b)) = indent /\ f_buf (b_f b) <> [] /\
    exists w s1, line (f_buf (b_f b)) w s1 /\ place (f_buf (b_f b1)) (f_st (b_f b1)) /\
      (s1 = [] /\ f_buf (b_f b1) = [] /\ b_lines b1 = 0 \/
       break_len s1 <> 0 /\ exists n, b_lines b1 = S n /\
         margin indent 0 n (skipn (break_len s1) s1) (scol (f_st (b_f b1))) (f_buf (b_f b1))) /\
      (f_bor (b_f b1) = false -> f_scr (b_f b1) = T ++ joint fold (b_lines b) ++ w /\ b_end b1 = List.length (f_scr (b_f b1))) /\
      (f_bor (b_f b1) = true -> f_bor (b_f b) = true /\ b_lines b = 0 /\ T = [] /\ f_scr (b_f b1) = [] /\
        b_start b1 = b_start b /\ b_start b <> 0 /\ b_end b1 = b_start b1 + List.length w /\ skipn (b_end b1) base = s1 /\
        skipn (b_start b1) base = w ++ s1).
  Proof.
    intros H P TX I1. unfold block_body in H. destruct (Nat.eqb (scol (f_st (b_f b))) indent && negb (is_empty (f_buf (b_f b)))) eqn:G; [|discriminate].
    apply andb_prop in G as [G1 G2]. apply Nat.eqb_eq in G1. split; [exact G1|]. split; [destruct (f_buf (b_f b)); discriminate|].
    apply bind_inv in H as (s & H1 & H). cbn zeta in H.
    (* text before the line *)
    match type of H with context [f_bor ?X] => set (s2 := X) in H end.
    assert (S2 : f_buf s2 = f_buf (b_f b) /\ f_st s2 = f_st (b_f b) /\
      (f_bor s2 = true -> f_bor (b_f b) = true /\ b_lines b = 0 /\ f_scr s2 = [] /\ T = [] /\ b_start b <> 0 /\
         b_start b = sread (f_st (b_f b)) - sread st0) /\
      (f_bor s2 = false -> f_scr s2 = T ++ joint fold (b_lines b))).
    { assert (S1 : f_buf s = f_buf (b_f b) /\ f_st s = f_st (b_f b) /\
        (f_bor s = true -> f_bor (b_f b) = true /\ b_lines b = 0 /\ f_scr s = [] /\ T = [] /\ b_start b <> 0 /\
           b_start b = sread (f_st (b_f b)) - sread st0) /\
        (f_bor s = false -> f_scr s = T)).
      { unfold texts in TX. destruct (f_bor (b_f b)) eqn:FB; cbn [andb] in H1.
        - destruct TX as (SC & ST & TX). destruct (Nat.ltb_spec 0 (b_lines b)) as [LN|LN].
          + apply bind_inv in H1 as (t & SL & H1). injection H1 as <-. cbn [f_buf f_st f_bor f_scr].
            split; [reflexivity|]. split; [reflexivity|]. split; [discriminate|]. intros _.
            destruct TX as [(X & _)|(_ & ->)]; [lia|]. rewrite SC. cbn [app]. unfold slice in SL.
            destruct (_ && _) in SL; [congruence|discriminate].
          + injection H1 as <-. split; [reflexivity|]. split; [reflexivity|]. split; [|congruence]. intros _.
            destruct TX as [(X & Y & Z)|(X & _)]; [|lia]. auto 10.
        - injection H1 as <-. split; [reflexivity|]. split; [reflexivity|]. split; [congruence|]. auto. }
      destruct S1 as (E1 & E2 & B1 & B2).
      assert (FP : forall u, f_buf (f_push s u) = f_buf s /\ f_st (f_push s u) = f_st s /\ f_bor (f_push s u) = f_bor s /\ f_scr (f_push s u) = f_scr s ++ u)
        by (intros u; cbn; auto).
      assert (S2 : exists u, s2 = f_push s u /\ u = joint fold (b_lines b)).
      { unfold s2. eexists. split; [|reflexivity]. unfold joint. destruct fold; [|reflexivity]. unfold folded.
        destruct (b_lines b) as [|[|k]]; try reflexivity. unfold f_push. rewrite app_nil_r. destruct s; reflexivity. }
      destruct S2 as (u & -> & EU). destruct (FP u) as (F1 & F2 & F3 & F4). rewrite F1, F2, F3, F4, EU.
      split; [exact E1|]. split; [exact E2|]. split.
      - intros X. destruct (B1 X) as (Y1 & Y2 & Y3 & Y4 & Y5 & Y6). rewrite Y2, Y3.
        replace (joint fold 0) with ([] : str) by (destruct fold; reflexivity). auto 10.
      - intros X. rewrite (B2 X). reflexivity. }
    clearbody s2. clear H1. destruct S2 as (E1 & E2 & BT & BF).
    apply bind_inv in H as (u1 & _ & H). apply bind_inv in H as (s3 & L & H). apply loop_runs in L.
    apply line_sound in L as (P3 & B3 & EN & w & LW & EW & SC3 & RD3 & CO3); [|rewrite E1, E2; exact P].
    rewrite E1 in LW, EW. rewrite E2 in RD3, CO3.
    apply bind_inv in H as (u2 & _ & H). apply bind_inv in H as ([s4 lines] & HB & H). apply bind_inv in H as ([[b5 st5] l5] & HI & H).
    assert (b1 = mkB (mkF b5 st5 (f_scr s4) (f_bor s4)) (if f_bor s2 then if b_start b =? 0 then sread (f_st s2) - sread st0 else b_start b else 0)
       (if f_bor s3 then sread (f_st s3) - sread st0 else List.length (f_scr s3)) l5) as -> by congruence. clear H.
    cbn [b_f b_start b_end b_lines f_buf f_st f_scr f_bor].
    exists w, (f_buf s3). split; [exact LW|].
    assert (REST : place b5 st5 /\ f_scr s4 = f_scr s3 /\ f_bor s4 = f_bor s3 /\
      (f_buf s3 = [] /\ b5 = [] /\ l5 = 0 \/ break_len (f_buf s3) <> 0 /\ exists n, l5 = S n /\
         margin indent 0 n (skipn (break_len (f_buf s3)) (f_buf s3)) (scol st5) b5)).
    { destruct (is_break (f_buf s3)) eqn:BR.
      - apply bind_inv in HB as (s4' & A & X). assert (s4' = s4) as -> by congruence. assert (lines = 1) as -> by congruence. clear X.
        unfold f_adv_line in A. apply bind_inv in A as ([b4 st4] & A & X). injection X as <-. cbn [f_buf f_st f_scr f_bor] in *.
        destruct (place_line _ _ _ _ P3 A) as (P4 & E4 & ST4). unfold scan_indent in HI. 
        replace (indent <=? scol st4) with false in HI by (rewrite ST4; cbn; lia).
        apply bind_inv in HI as (u3 & _ & HI). apply loop_runs in HI.
        destruct (indent_sound _ _ _ HI _ _ _ _ _ _ eq_refl eq_refl P4) as (P5 & n & EL & M); [rewrite ST4; cbn; lia|].
        split; [exact P5|]. split; [reflexivity|]. split; [reflexivity|]. right. split; [apply is_break_iff, BR|].
        exists n. split; [lia|]. rewrite <- E4. rewrite ST4 in M. exact M.
      - assert (s4 = s3) as -> by congruence. assert (lines = 0) as -> by congruence.
        assert (Z : f_buf s3 = []). { destruct EN as [EN|EN]; [exact EN|]. apply is_break_iff in EN. congruence. }
        unfold scan_indent in HI. replace (indent <=? scol (f_st s3)) with true in HI by lia. 
        injection HI as <- <- <-. split; [exact P3|]. split; [reflexivity|]. split; [reflexivity|]. left. auto. }
    destruct REST as (P5 & SC4 & B4 & REST). split; [exact P5|]. split; [exact REST|].
    rewrite SC4, B4, B3. split.
    - intros X. rewrite SC3. rewrite X. split; [|reflexivity]. rewrite (BF X), <- app_assoc. reflexivity.
    - intros X. rewrite X in *. destruct (BT eq_refl) as (Y1 & Y2 & Y3 & Y4 & Y5 & Y6).
      replace (b_start b =? 0) with false by lia. destruct (place_at _ _ P) as [A1 A2]. destruct (place_at _ _ P3) as [A3 A4].
      repeat (split; [first [assumption | reflexivity | congruence | lia]|]). rewrite Y6, A1. exact EW.
  Qed.

  Lemma lines_sound indent fold b b' : runs (block_body o base st0 indent fold) b b' -> forall T,
    place (f_buf (b_f b)) (f_st (b_f b)) -> texts b T -> 1 <= indent ->
    scol (f_st (b_f b)) = indent -> f_buf (b_f b) <> [] ->
    exists v, text_lines fold indent (f_buf (b_f b)) v (b_lines b') (f_buf (b_f b')) /\
      place (f_buf (b_f b')) (f_st (b_f b')) /\
      (f_bor (b_f b') = false -> f_scr (b_f b') = T ++ joint fold (b_lines b) ++ v /\ b_end b' = List.length (f_scr (b_f b'))) /\
      (f_bor (b_f b') = true -> f_bor (b_f b) = true /\ b_lines b = 0 /\ T = [] /\ f_scr (b_f b') = [] /\
        b_start b' = b_start b /\ b_end b' = b_start b' + List.length v /\
        exists s1, skipn (b_end b') base = s1 /\ skipn (b_start b') base = v ++ s1 /\ line (f_buf (b_f b)) v s1 /\
          (s1 = [] /\ f_buf (b_f b') = [] /\ b_lines b' = 0 \/ break_len s1 <> 0 /\ exists n k, b_lines b' = S n /\
             margin indent 0 n (skipn (break_len s1) s1) k (f_buf (b_f b')))).
  Proof.
    induction 1 as [b b' B|b b1 b' B R IH]; intros T P TX I1 C NE.
    { exfalso. unfold block_body in B. rewrite C, Nat.eqb_refl in B. destruct (f_buf (b_f b)); [congruence|]. cbn [is_empty negb andb] in B.
      repeat match type of B with (let* _ := _ in _) = _ => apply bind_inv in B as (? & _ & B) | (let '(_, _) := ?x in _) = _ => destruct x end; discriminate. }
    destruct (round_sound _ _ _ _ _ B P TX I1) as (_ & _ & w & s1 & LW & P1 & RE & BF & BT).
    destruct (Nat.eqb (scol (f_st (b_f b1))) indent && negb (is_empty (f_buf (b_f b1)))) eqn:G.
    - apply andb_prop in G as [G1 G2]. apply Nat.eqb_eq in G1. assert (NE1 : f_buf (b_f b1) <> []) by (destruct (f_buf (b_f b1)); discriminate).
      destruct RE as [(_ & X & _)|(BL & n & EN & M)]; [congruence|].
      assert (TX1 : texts b1 (T ++ joint fold (b_lines b) ++ w)).
      { unfold texts. destruct (f_bor (b_f b1)) eqn:FB.
        - destruct (BT eq_refl) as (Y1 & Y2 & Y3 & Y4 & Y5 & Y6 & Y7 & Y8 & Y9). split; [exact Y4|]. split; [congruence|]. right.
          split; [lia|]. rewrite Y7, Y9, Y3, Y2. replace (b_start b1 + List.length w - b_start b1) with (List.length w) by lia.
          rewrite firstn_app, firstn_all, Nat.sub_diag, firstn_O, app_nil_r. destruct fold; reflexivity.
        - apply BF. reflexivity. }
      destruct (IH _ P1 TX1 I1 G1 NE1) as (v & TL & P' & BF' & BT').
      exists (w ++ joint fold (S n) ++ v). split.
      { eapply tl_next; [exact LW|exact BL|rewrite G1 in M; exact M|exact NE1|exact TL]. }
      split; [exact P'|]. split.
      + intros X. destruct (BF' X) as [Y Z]. split; [|exact Z]. rewrite Y, EN, <- !app_assoc. reflexivity.
      + intros X. destruct (BT' X) as (_ & Y & _). lia.
    - assert (b' = b1) as ->.
      { inversion R as [? ? B1|? ? ? B1]; subst; unfold block_body in B1; rewrite G in B1; congruence. }
      exists w. split; [|split; [exact P1|split; [exact BF|]]].
      + destruct RE as [(E1 & E2 & E3)|(BL & n & EN & M)].
        * rewrite E2, E3. apply tl_eof. rewrite <- E1. exact LW.
        * rewrite EN. eapply tl_last; [exact LW|exact BL|exact M|].
          apply andb_false_iff in G as [G|G]; [left; apply Nat.eqb_neq in G; exact G|right; destruct (f_buf (b_f b1)); [reflexivity|discriminate]].
      + intros X. destruct (BT X) as (Y1 & Y2 & Y3 & Y4 & Y5 & Y6 & Y7 & Y8 & Y9).
        repeat (split; [assumption|]). exists s1. split; [exact Y8|]. split; [exact Y9|]. split; [exact LW|].
        destruct RE as [(E1 & E2 & E3)|(BL & n & EN & M)]; [auto|right]. split; [exact BL|]. exists n, (scol (f_st (b_f b1))). auto.
  Qed.
End Block.
