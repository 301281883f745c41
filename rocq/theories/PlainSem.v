(** What plain scalars stand for: soundness of the eager scanner. *)
From Verif Require Export QuotedFacts SpecPlain.
From Verif Require Import Utf8Facts History.
From Coq Require Import Lia ZifyBool ZifyN ZifyNat.
Open Scope nat_scope.

Lemma closed_iff flow s : plain_end flow s = true <-> closed flow s.
Proof.
  unfold plain_end, closed. rewrite orb_true_iff, !andb_true_iff. apply ZifyClasses.or_morph.
  - unfold is_wsZ_at. rewrite wsZ_iff. split.
    + intros [A B]. destruct (at_is_cons _ _ A) as (r & ->). exists r. split; [reflexivity|exact B].
    + intros (r & -> & B). split; [reflexivity|exact B].
  - apply ZifyClasses.and_morph; [reflexivity|]. unfold is_flow_ind_at. destruct s as [|c r]; cbn [nth_error].
    + split; [discriminate|]. intros (c & r & E & _). discriminate.
    + unfold is_flow_ind_byte, flow_indicators. cbn [In]. split.
      * intros H. exists c, r. split; [reflexivity|]. lia.
      * intros (c' & r' & E & H). assert (c' = c) as -> by congruence. lia.
Qed.
Lemma not_closed flow s : plain_end flow s = false <-> ~ closed flow s.
Proof. rewrite <- closed_iff. destruct (plain_end flow s); intuition congruence. Qed.

Lemma goes_on_iff (block : bool) indent k s :
  is_empty s || (block && Nat.ltb k indent) || is_doc_indicator s k || at_is s 0 35 || plain_end (negb block) s = false <->
  goes_on (negb block) indent k s.
Proof.
  unfold goes_on. rewrite !orb_false_iff, not_closed. split.
  - intros ((((A & B) & C) & D) & E). repeat split.
    + intros ->. discriminate.
    + intros r ->. discriminate.
    + exact E.
    + intros [-> M]. apply document_marker_iff in M. congruence.
    + intros F. destruct block; [|discriminate]. apply Nat.ltb_ge, B.
  - intros (A & B & C & D & E). repeat split.
    + destruct s; [congruence|reflexivity].
    + destruct block; [|reflexivity]. specialize (E eq_refl). apply Nat.ltb_ge, E.
    + destruct k as [|k]; [|apply doc_indicator_col]. destruct (is_doc_indicator s 0) eqn:M; [|reflexivity].
      apply document_marker_iff in M. tauto.
    + destruct (at_is s 0 35) eqn:H; [|reflexivity]. destruct (at_is_cons _ _ H) as (r & X). destruct (B r X).
    + exact C.
Qed.

Lemma space_stop k n s k' r : space k n s k' r -> ~ white r.
Proof. induction 1; auto. Qed.
Lemma space_suffix k n s k' r : space k n s k' r -> exists g, s = g ++ r.
Proof.
  induction 1 as [k b W|k n c b k' b' BC G (g & ->)|k n b k' b' BR G (g & IH)].
  - exists []. reflexivity.
  - exists (c :: g). reflexivity.
  - exists (firstn (break_len b) b ++ g). rewrite <- app_assoc, <- IH. symmetry. apply firstn_skipn.
Qed.

Section Sound.
  Variables (o : flags) (base : str) (st : stats) (indent : nat) (block : bool).
  Hypothesis VB : valid base.

  Definition ptxt (s : fstate) : str :=
    if f_bor s then firstn (consumed base (f_buf s)) base else f_scr s.
  Definition pin (s : fstate) : Prop :=
    exists k, k <= List.length base /\ f_buf s = skipn k base /\ is_boundary base k = true /\
      (f_bor s = true -> f_scr s = []) /\ sread (f_st s) = sread st + k.

  Lemma pin_valid s : pin s -> valid (f_buf s).
  Proof. intros (k & K & E & B & _). rewrite E. apply valid_skipn; assumption. Qed.

  Lemma p_adv_inv s n s' : pin s -> f_adv s n = Ok s' ->
    pin s' /\ f_buf s' = skipn n (f_buf s) /\ f_st s' = supd (f_st s) n 0 n /\ f_bor s' = f_bor s /\
    is_boundary (f_buf s) n = true /\ f_scr s' = f_scr s /\
    ptxt s' = if f_bor s then ptxt s ++ firstn n (f_buf s) else ptxt s.
  Proof.
    intros (k & K & E & BD & SC & SR) H. unfold f_adv in H. apply bind_inv in H as ([b' st'] & A & H).
    apply adv_ok in A as (-> & -> & B').
    assert (s' = mkF (skipn n (f_buf s)) (supd (f_st s) n 0 n) (f_scr s) (f_bor s)) as -> by congruence.
    cbn [f_buf f_st f_bor f_scr]. assert (L := boundary_le _ _ B'). rewrite E, skipn_length in L.
    split; [|repeat split; auto].
    - exists (k + n). cbn [f_buf f_bor f_scr f_st]. rewrite E, skipn_skipn.
      repeat split; try lia; [|exact SC|cbn; lia]. apply boundary_add; [exact BD|]. rewrite <- E. exact B'.
    - unfold ptxt. cbn [f_bor f_buf f_scr]. destruct (f_bor s); [|reflexivity].
      rewrite E, skipn_skipn, !consumed_skipn by lia. apply firstn_skipn_split.
  Qed.
  Lemma p_adv_line_inv s s' : pin s -> f_adv_line s = Ok s' ->
    pin s' /\ f_buf s' = skipn (break_amt (f_buf s)) (f_buf s) /\
    f_st s' = supd (f_st s) (break_amt (f_buf s)) 1 0 /\ f_bor s' = f_bor s /\
    f_scr s' = f_scr s /\ (f_bor s = false -> ptxt s' = ptxt s).
  Proof.
    intros (k & K & E & BD & SC & SR) H. unfold f_adv_line in H. apply bind_inv in H as ([b' st'] & A & H).
    apply adv_line_ok in A as (-> & -> & B').
    assert (s' = mkF (skipn (break_amt (f_buf s)) (f_buf s)) (supd (f_st s) (break_amt (f_buf s)) 1 0) (f_scr s) (f_bor s))
      as -> by congruence.
    cbn [f_buf f_st f_bor f_scr]. repeat split; auto.
    - exists (k + break_amt (f_buf s)). cbn [f_buf f_bor f_scr f_st].
      assert (L := boundary_le _ _ B'). rewrite E, skipn_length in L.
      split; [rewrite E; lia|]. split; [rewrite E at 2; apply skipn_skipn|]. split; [|split; [exact SC|cbn; lia]].
      apply boundary_add; [exact BD|]. rewrite <- E. exact B'.
    - unfold ptxt. cbn [f_bor f_scr]. intros ->. reflexivity.
  Qed.
  Lemma p_no_borrow_inv s s' : pin s -> p_no_borrow base s = Ok s' ->
    pin s' /\ f_buf s' = f_buf s /\ f_st s' = f_st s /\ f_bor s' = false /\ ptxt s' = ptxt s.
  Proof.
    intros IN H. unfold p_no_borrow in H. destruct (f_bor s) eqn:B.
    - apply bind_inv in H as (t & S1 & H).
      assert (s' = mkF (f_buf s) (f_st s) (f_scr s ++ t) false) as -> by congruence.
      unfold slice in S1. destruct (_ && _ && _); [|discriminate]. rewrite Nat.sub_0_r in S1. cbn [skipn] in S1.
      assert (t = firstn (consumed base (f_buf s)) base) as -> by congruence.
      destruct IN as (k & K & E & BD & SC & SR). rewrite (SC B).
      cbn [f_buf f_st f_bor]. unfold ptxt. cbn [f_bor f_scr f_buf]. rewrite B. cbn [app].
      repeat split. exists k. cbn [f_buf f_bor f_st]. repeat split; try tauto; try lia; congruence.
    - assert (s' = s) as -> by congruence. repeat split; auto.
  Qed.
  Lemma p_push_inv s t : pin s -> f_bor s = false ->
    pin (f_push s t) /\ ptxt (f_push s t) = ptxt s ++ t.
  Proof.
    intros (k & K & E & BD & SC & SR) B. unfold ptxt. cbn [f_push f_bor f_scr]. rewrite B.
    split; [|reflexivity]. exists k. cbn [f_push f_buf f_bor f_st]. rewrite B. repeat split; try tauto; try lia; congruence.
  Qed.
  Lemma p_adv_head_inv s s' : pin s -> f_adv (f_push_head s) 1 = Ok s' ->
    pin s' /\ f_buf s' = skipn 1 (f_buf s) /\ f_st s' = supd (f_st s) 1 0 1 /\ f_bor s' = f_bor s /\
    is_boundary (f_buf s) 1 = true /\ ptxt s' = ptxt s ++ firstn 1 (f_buf s).
  Proof.
    intros IN H. unfold f_push_head in H. destruct (f_bor s) eqn:B.
    - apply p_adv_inv in H as (I & E & ST & BB & BD & _ & T); [|exact IN]. rewrite B in T, BB. auto 6.
    - destruct (p_push_inv s (firstn 1 (f_buf s)) IN B) as [IP TP].
      apply p_adv_inv in H as (I & E & ST & BB & BD & _ & T); [|exact IP]. cbn [f_push f_bor] in T, BB. rewrite B in T.
      cbn [f_push f_buf f_st] in E, ST, BD. rewrite T, TP. rewrite B in BB. auto 6.
  Qed.

  Notation flow := (negb block).
  Notation plain := (plain flow indent).

  Lemma word_sound s s' : runs (plain_word_body o flow) s s' -> pin s ->
    pin s' /\ f_bor s' = f_bor s /\ exists w, ptxt s' = ptxt s ++ w /\
      (is_wsZ (f_buf s') = true \/ closed flow (f_buf s')) /\
      (forall v r, plain (scol (f_st s')) (f_buf s') v r -> plain (scol (f_st s)) (f_buf s) (w ++ v) r).
  Proof.
    induction 1 as [s s' B|s s1 s' B R IH]; intros IN; unfold plain_word_body in B.
    - destruct (is_wsZ (f_buf s)) eqn:W.
      + assert (s' = s) as -> by congruence. split; [exact IN|]. split; [reflexivity|]. exists []. rewrite app_nil_r. auto.
      + apply bind_inv in B as (u & _ & B). destruct (plain_end flow (f_buf s)) eqn:C.
        * assert (s' = s) as -> by congruence. split; [exact IN|]. split; [reflexivity|]. exists []. rewrite app_nil_r.
          split; [reflexivity|]. split; [right; apply closed_iff, C|auto].
        * apply bind_inv in B as (s1 & _ & B). discriminate.
    - destruct (is_wsZ (f_buf s)) eqn:W; [discriminate|]. apply bind_inv in B as (u & _ & B).
      destruct (plain_end flow (f_buf s)) eqn:C; [discriminate|]. apply bind_inv in B as (s2 & A & B).
      assert (s1 = s2) as -> by congruence.
      apply p_adv_head_inv in A as (I1 & E1 & ST1 & BB & BD & T1); [|exact IN].
      destruct (IH I1) as (I' & BB' & w & T & EN & K). split; [exact I'|]. split; [congruence|].
      assert (VS := pin_valid _ IN). destruct (f_buf s) as [|c t] eqn:E; [discriminate|]. cbn [skipn firstn] in *.
      assert (CA := QuotedFacts.ascii_head c t VS BD).
      exists (c :: w). split; [rewrite T, T1, <- app_assoc; reflexivity|]. split; [exact EN|].
      intros v r P. specialize (K v r P). rewrite ST1, E1 in K.
      replace (scol (supd (f_st s) 1 0 1)) with (S (scol (f_st s))) in K by (cbn; lia).
      assert (EC : encode c = [c]) by (unfold encode; replace (c <? 128)%N with true by lia; reflexivity).
      pose proof (pl_char flow indent (scol (f_st s)) c t (w ++ v) r) as PC. rewrite EC in PC. cbn [app] in PC. cbn [app].
      apply PC; [apply scalar_ascii, CA| |apply not_closed, C|exact K].
      apply not_white. rewrite wsZ_ws in W. apply orb_false_iff in W. tauto.
  Qed.

  Lemma ws_sound p q : runs (plain_ws_body o base) p q ->
    forall s ws lines s' ws' lines' T bl,
    p = (s, ws, lines) -> q = (s', ws', lines') -> pin s ->
    ptxt s = T ++ bl -> List.length bl = ws ->
    pin s' /\ exists n bl', space (scol (f_st s)) n (f_buf s) (scol (f_st s')) (f_buf s') /\ lines' = lines + n /\
      ptxt s' = T ++ bl' /\ List.length bl' = ws' /\
      (n = 0 -> f_bor s' = f_bor s /\ exists g, f_buf s = g ++ f_buf s' /\ bl' = bl ++ g) /\
      (n <> 0 -> f_bor s' = false) /\ (f_bor s = false -> f_bor s' = false).
  Proof.
    induction 1 as [p q B|p p' q B R IH]; intros s ws lines s' ws' lines' T bl -> -> IN TX LB;
      unfold plain_ws_body in B; apply bind_inv in B as (u & _ & B).
    - destruct (is_blank (f_buf s)) eqn:BL; [apply bind_inv in B as (s1 & _ & B); discriminate|].
      destruct (is_break (f_buf s)) eqn:BR.
      { apply bind_inv in B as (s1 & _ & B). apply bind_inv in B as (s2 & _ & B). discriminate. }
      assert (s' = s) as -> by congruence.
      assert (ws' = ws) as -> by congruence. assert (lines' = lines) as -> by congruence.
      split; [exact IN|]. exists 0, bl. split; [apply sp_end, not_white; unfold is_ws; rewrite BL, BR; reflexivity|].
      rewrite Nat.add_0_r. repeat split; auto; [|congruence]. exists []. rewrite app_nil_r. auto.
    - destruct (is_blank (f_buf s)) eqn:BL.
      { apply bind_inv in B as (s1 & A1 & B).
        apply p_adv_head_inv in A1 as (I1 & E1 & ST1 & BB & BD & T1); [|exact IN].
        apply is_blank_iff in BL as (c & t & E & BC). rewrite E in *. cbn [skipn firstn] in *.
        assert (p' = (s1, S ws, lines)) as -> by congruence.
        destruct (IH s1 (S ws) lines s' ws' lines' T (bl ++ [c]) eq_refl eq_refl I1)
          as (I' & n & bl' & G & L & TT & LL & G0 & G1 & G2).
        - rewrite T1, TX, app_assoc. reflexivity.
        - rewrite app_length. cbn. lia.
        - split; [exact I'|]. exists n, bl'. rewrite E1, ST1 in G.
          replace (scol (supd (f_st s) 1 0 1)) with (S (scol (f_st s))) in G by (cbn; lia).
          split; [apply sp_blank; assumption|]. split; [exact L|]. split; [exact TT|]. split; [exact LL|]. split.
          + intros N0. destruct (G0 N0) as (BB2 & g & EG & ->). split; [congruence|]. exists (c :: g).
            rewrite E1 in EG. cbn [app]. split; [congruence|]. rewrite <- app_assoc. reflexivity.
          + split; [exact G1|]. rewrite <- BB. exact G2. }
      destruct (is_break (f_buf s)) eqn:BR; [|discriminate].
      apply bind_inv in B as (s1 & N1 & B). apply bind_inv in B as (s2 & A2 & B).
      apply p_no_borrow_inv in N1 as (I1 & E1 & ST1 & B1 & T1); [|exact IN].
      assert (p' = (s2, ws, S lines)) as -> by congruence.
      apply p_adv_line_inv in A2 as (I2 & E2 & ST2 & B2 & _ & T2); [|exact I1].
      destruct (IH s2 ws (S lines) s' ws' lines' T bl eq_refl eq_refl I2)
        as (I' & n & bl' & G & L & TT & LL & G0 & G1 & G2).
      + rewrite T2, T1 by exact B1. exact TX.
      + exact LB.
      + split; [exact I'|]. exists (S n), bl'. rewrite E1 in E2. rewrite E2, ST2 in G.
        change (scol (supd (f_st s1) (break_amt (f_buf s1)) 1 0)) with 0 in G.
        split; [apply sp_break; [apply is_break_iff, BR|rewrite break_len_amt; exact G]|].
        split; [lia|]. split; [exact TT|]. split; [exact LL|].
        split; [discriminate|]. assert (f_bor s' = false) by (apply G2; congruence). auto.
  Qed.

  Definition separator (n : nat) (g : str) : str := match n with 0 => g | _ => folded n end.
  (** Between rounds: after the word [T] was read up to [bw]. *)
  Definition between (p : pstate) (T : str) (kw : nat) (bw : str) : Prop :=
    pin (p_f p) /\ (exists k, k <= List.length base /\ bw = skipn k base /\ is_boundary base k = true /\
                              sread (p_scalar p) = sread st + k /\ (f_bor (p_f p) = true -> T = firstn k base)) /\
    exists n g, bw = g ++ f_buf (p_f p) /\ space kw n bw (scol (f_st (p_f p))) (f_buf (p_f p)) /\
      ptxt (p_f p) = T ++ separator n g /\
      p_ws p + p_lines p = List.length (separator n g) /\
      p_outdent p = block && Nat.ltb (scol (f_st (p_f p))) indent /\
      (is_wsZ bw = true \/ closed flow bw).

  Definition stops (p : pstate) : bool :=
    is_empty (f_buf (p_f p)) || p_outdent p
     || is_doc_indicator (f_buf (p_f p)) (scol (f_st (p_f p))) || at_is (f_buf (p_f p)) 0 35
     || plain_end flow (f_buf (p_f p)).

  (** A round that reads a word. *)
  Lemma body_next p p' : pin (p_f p) -> (f_bor (p_f p) = true -> ptxt (p_f p) = firstn (consumed base (f_buf (p_f p))) base) ->
    plain_body o base indent block p = Ok (Next p') ->
    stops p = false /\ exists w kw bw, between p' (ptxt (p_f p) ++ w) kw bw /\
      (forall v r, plain kw bw v r -> plain (scol (f_st (p_f p))) (f_buf (p_f p)) (w ++ v) r).
  Proof.
    intros IN BT B. unfold plain_body in B. apply bind_inv in B as (u & _ & B). fold (stops p) in B.
    destruct (stops p) eqn:ST; [discriminate|]. split; [reflexivity|].
    apply bind_inv in B as (s1 & LW & B). apply bind_inv in B as ([[s2 ws] lines] & LS & B).
    apply bind_inv in B as ([[s3 ws'] lines'] & J & B).
    assert (p' = mkP s3 (f_st s1) (block && Nat.ltb (scol (f_st s2)) indent) ws' lines') as -> by congruence.
    unfold plain_word in LW. apply loop_runs in LW. unfold plain_ws in LS. apply loop_runs in LS.
    destruct (word_sound _ _ LW IN) as (I1 & BB1 & w & T1 & EN & K).
    destruct (ws_sound _ _ LS s1 0 0 s2 ws lines (ptxt s1) [] eq_refl eq_refl I1)
      as (I2 & n & bl & G & L & T2 & LB & G0 & G1 & _); [rewrite app_nil_r; reflexivity|reflexivity|].
    cbn in L. subst lines. exists w, (scol (f_st s1)), (f_buf s1). split; [|exact K].
    assert (exists g, f_buf s1 = g ++ f_buf s2 /\ (n = 0 -> bl = g)) as (g & EG & GB).
    { destruct n as [|n].
      - destruct (G0 eq_refl) as (_ & g & EG & E). exists g. auto.
      - destruct (space_suffix _ _ _ _ _ G) as (g & EG). exists g. split; [exact EG|discriminate]. }
    assert (J' : pin s3 /\ f_buf s3 = f_buf s2 /\ f_st s3 = f_st s2 /\ f_bor s3 = f_bor s2 /\
                 ptxt s3 = ptxt s1 ++ separator n g /\ ws' + lines' = List.length (separator n g)).
    { unfold plain_join in J. destruct n as [|n].
      - assert (s3 = s2) as -> by congruence. assert (ws' = ws) as -> by congruence. assert (lines' = 0) as -> by congruence.
        specialize (GB eq_refl). subst bl. cbn [separator]. repeat (split; [assumption || reflexivity|]). lia.
      - apply bind_inv in J as (scr & CH & J). assert (BF : f_bor s2 = false) by (apply G1; discriminate).
        unfold chop in CH. destruct (Nat.leb ws (List.length (f_scr s2))) eqn:LE; [|discriminate].
        assert (scr = ptxt s1) as ->.
        { assert (f_scr s2 = ptxt s1 ++ bl) as E.
          { transitivity (ptxt s2); [unfold ptxt; rewrite BF; reflexivity|]. exact T2. }
          rewrite E in CH. rewrite app_length, LB in CH.
          replace (List.length (ptxt s1) + ws - ws) with (List.length (ptxt s1)) in CH by lia.
          rewrite firstn_app_exact in CH. congruence. }
        set (s5 := mkF (f_buf s2) (f_st s2) (ptxt s1) (f_bor s2)) in *.
        assert (I5 : pin s5 /\ ptxt s5 = ptxt s1).
        { unfold s5, pin. unfold ptxt at 1. cbn [f_bor f_scr f_buf f_st]. rewrite BF. split; [|reflexivity].
          destruct I2 as (k & K2 & E & BD & _ & SR). exists k. repeat split; try lia; auto; discriminate. }
        destruct I5 as [I5 T5]. cbn [separator].
        destruct (p_push_inv s5 (folded (S n)) I5 BF) as [IP TP].
        assert (s3 = f_push s5 (folded (S n)) /\ ws' + lines' = List.length (folded (S n))) as [-> ->].
        { destruct n as [|n].
          - change (folded 1) with [32%N]. split; [congruence|]. assert (ws' = 0) as -> by congruence. assert (lines' = 1) as -> by congruence. reflexivity.
          - change (folded (S (S n))) with (repeat 10%N (S n)). split; [congruence|]. assert (ws' = 0) as -> by congruence. assert (lines' = S n) as -> by congruence.
            rewrite repeat_length. lia. }
        split; [exact IP|]. split; [reflexivity|]. split; [reflexivity|]. split; [reflexivity|].
        split; [rewrite TP, T5; reflexivity|reflexivity]. }
    destruct J' as (I3 & E3 & ST3 & B3 & T3 & L3).
    split; [exact I3|]. split.
    - destruct I1 as (k & K1 & EK & BD & _ & SR). exists k. cbn [p_scalar p_f].
      split; [exact K1|]. split; [exact EK|]. split; [exact BD|]. split; [exact SR|].
      intros BT3. rewrite <- T1. unfold ptxt.
      assert (f_bor s1 = true) as ->.
      { destruct n as [|n]; [destruct (G0 eq_refl); congruence|]. specialize (G1 ltac:(discriminate)). congruence. }
      rewrite EK, consumed_skipn by lia. reflexivity.
    - exists n, g. cbn [p_f p_ws p_lines p_outdent]. rewrite E3, ST3, T3, <- T1.
      repeat (split; [assumption || reflexivity|]). exact EN.
  Qed.

  Lemma body_done p p' : plain_body o base indent block p = Ok (Done p') -> p' = p /\ stops p = true.
  Proof.
    intros B. unfold plain_body in B. apply bind_inv in B as (u & _ & B). fold (stops p) in B.
    destruct (stops p); [split; [congruence|reflexivity]|].
    apply bind_inv in B as (s1 & LW & B). apply bind_inv in B as ([[s2 ws] lines] & LS & B).
    apply bind_inv in B as ([[s3 ws'] lines'] & J & B). discriminate.
  Qed.

  Lemma loop_sound p p' : runs (plain_body o base indent block) p p' -> forall T kw bw, between p T kw bw ->
    exists v kw' r, between p' (T ++ v) kw' r /\ plain kw bw v r.
  Proof.
    induction 1 as [p p' B|p p1 p' B R IH]; intros T kw bw BT.
    - apply body_done in B as [-> ST]. exists [], kw, bw. rewrite app_nil_r. split; [exact BT|].
      destruct BT as (IN & _ & n & g & EG & SP & TX & LN & OD & EN).
      unfold stops in ST. rewrite OD in ST.
      assert (NG : ~ goes_on flow indent (scol (f_st (p_f p))) (f_buf (p_f p))) by (rewrite <- goes_on_iff; congruence).
      destruct EN as [WZ|CL]; [|apply pl_end; auto]. apply wsZ_iff in WZ as [->|W]; [apply pl_end; auto|].
      eapply pl_stop; eauto.
    - destruct BT as (IN & _ & n & g & EG & SP & TX & LN & OD & EN).
      apply body_next in B as (ST & w & kw1 & bw1 & BT1 & K); [|exact IN|].
      2: { unfold ptxt. intros ->. reflexivity. }
      destruct (IH _ _ _ BT1) as (v & kw' & r & BT' & P). apply K in P.
      unfold stops in ST. rewrite OD in ST. apply goes_on_iff in ST.
      exists (separator n g ++ w ++ v), kw', r. split.
      + rewrite TX in BT'. rewrite <- !app_assoc in BT'. exact BT'.
      + destruct n as [|n]; cbn [separator].
        * destruct g as [|c g].
          { exfalso. cbn [app] in EG. destruct ST as (N1 & _ & N2 & _). rewrite <- EG in N1, N2.
            destruct EN as [WZ|CL]; [|tauto]. apply wsZ_iff in WZ as [E|W]; [tauto|].
            rewrite EG in W. exact (space_stop _ _ _ _ _ SP W). }
          rewrite EG in *. apply pl_blanks with (k' := scol (f_st (p_f p))); [discriminate|exact SP|exact ST|exact P].
        * apply pl_fold with (k' := scol (f_st (p_f p))) (s' := f_buf (p_f p)); assumption.
  Qed.
End Sound.

(** What an eager plain scalar is. *)
Lemma plain_sound o base st indent block tok n st' : valid base -> plain_first base st block ->
  scan_plain_scalar_eager o base st indent block = Ok (tok, n, st') ->
  exists c, tok = TScalar c Plain /\ plain (negb block) indent (scol st) base (cow_str c) (skipn n base) /\
    n <= List.length base /\ (forall x, c = Borrowed x -> x = firstn n base).
Proof.
  intros VB F X. unfold scan_plain_scalar_eager in X. apply bind_inv in X as (u & _ & X).
  destruct (negb block && _ && _); [discriminate|].
  apply bind_inv in X as (p & LP & X). apply loop_runs in LP.
  set (p0 := mkP (mkF base st [] true) st false 0 0) in *.
  assert (I0 : pin base st (p_f p0)).
  { exists 0. cbn. repeat split; auto; lia. }
  assert (T0 : ptxt base (p_f p0) = []).
  { unfold ptxt. cbn. unfold consumed. rewrite Nat.sub_diag. reflexivity. }
  assert (exists v kw r, between base st indent block p v kw r /\ plain (negb block) indent (scol st) base v r) as (v & kw & r & BT & P).
  { inversion LP as [? ? B|? p1 ? B R]; subst.
    - exfalso. apply body_done in B as [_ ST]. unfold stops in ST. cbn in ST. destruct F as (F1 & F2 & F3 & F4).
      rewrite F2, F3, F4 in ST. destruct base; discriminate.
    - apply (body_next o base st) in B as (_ & w & kw & bw & BT & K); [|exact VB|exact I0|].
      2: { unfold ptxt. intros ->. reflexivity. }
      rewrite T0 in BT. cbn [app] in BT.
      destruct (loop_sound o base st indent block VB _ _ R _ _ _ BT) as (v & kw' & r & BT' & P).
      exists (w ++ v), kw', r. split; [exact BT'|]. apply K, P. }
  destruct BT as (IN & (k & K & ER & BD & SR & BO) & m & g & EG & SP & TX & LN & OD & EN).
  apply bind_inv in X as (scr & CH & X). apply bind_inv in X as (text & TE & X).
  assert (n = k) as -> by (assert (n = sread (p_scalar p) - sread st) as -> by congruence; lia).
  replace (sread (p_scalar p) - sread st) with k in TE by lia.
  assert (tok = TScalar text Plain) as -> by congruence. exists text. split; [reflexivity|].
  assert (CV : cow_str text = v /\ (forall x, text = Borrowed x -> x = firstn k base)).
  { destruct (f_bor (p_f p)) eqn:BF.
    - apply bind_inv in TE as (t & SL & TE). assert (text = Borrowed t) as -> by congruence.
      unfold slice in SL. destruct (_ && _ && _); [|discriminate]. rewrite Nat.sub_0_r in SL. cbn [skipn] in SL.
      assert (t = firstn k base) as -> by congruence. rewrite (BO eq_refl). cbn [cow_str]. split; [reflexivity|congruence].
    - apply bind_inv in TE as (t & U & TE). assert (text = Owned t) as -> by congruence. split; [|discriminate].
      unfold utf8_unwrap in U. destruct (valid_utf8 scr) eqn:VU; [|discriminate]. assert (t = scr) as -> by congruence.
      cbn [cow_str]. unfold ptxt in TX. rewrite BF in TX. rewrite TX in CH. unfold chop in CH.
      rewrite LN, app_length in CH. destruct (Nat.leb _ _); [|discriminate].
      replace (List.length v + List.length (separator m g) - List.length (separator m g)) with (List.length v) in CH by lia.
      rewrite firstn_app_exact in CH. congruence. }
  destruct CV as [-> CB]. split; [rewrite <- ER; exact P|]. split; [exact K|exact CB].
Qed.

(** ** Determinism *)
Lemma encode_inj c d : scalar_value c -> scalar_value d -> encode c = encode d -> c = d.
Proof.
  intros [C _] [D _]. unfold encode.
  assert (E4 : (forall v, v = 64 * (v / 64) + v mod 64)%N) by (intros v; apply N.div_mod'; lia).
  assert (D2 : forall v : N, (v / 4096 = v / 64 / 64)%N) by (intros v; rewrite N.div_div by lia; reflexivity).
  assert (D3 : forall v : N, (v / 262144 = v / 64 / 64 / 64)%N) by (intros v; rewrite !N.div_div by lia; reflexivity).
  rewrite !D2, !D3.
  pose proof (E4 c) as C1. pose proof (E4 (c / 64)%N) as C2. pose proof (E4 (c / 64 / 64)%N) as C3.
  pose proof (E4 d) as F1. pose proof (E4 (d / 64)%N) as F2. pose proof (E4 (d / 64 / 64)%N) as F3.
  set (c1 := (c mod 64)%N) in *. set (c2 := (c / 64 mod 64)%N) in *. set (c3 := (c / 64 / 64 mod 64)%N) in *.
  set (d1 := (d mod 64)%N) in *. set (d2 := (d / 64 mod 64)%N) in *. set (d3 := (d / 64 / 64 mod 64)%N) in *.
  destruct (c <? 128)%N, (d <? 128)%N; try discriminate.
  { intros E. congruence. }
  { destruct (d <? 2048)%N; [discriminate|]. destruct (d <? 65536)%N; discriminate. }
  { destruct (c <? 2048)%N; [discriminate|]. destruct (c <? 65536)%N; discriminate. }
  assert (CI : forall (a b : N) (x y : list N), a :: x = b :: y -> a = b /\ x = y) by (intros; split; congruence).
  destruct (c <? 2048)%N, (d <? 2048)%N.
  { intros E. apply CI in E as [A E]. apply CI in E as [B _]. lia. }
  { destruct (d <? 65536)%N; discriminate. }
  { destruct (c <? 65536)%N; discriminate. }
  destruct (c <? 65536)%N, (d <? 65536)%N; try discriminate.
  { intros E. apply CI in E as [A E]. apply CI in E as [B E]. apply CI in E as [G _]. lia. }
  { intros E. apply CI in E as [A E]. apply CI in E as [B E]. apply CI in E as [G E]. apply CI in E as [H _]. lia. }
Qed.
Lemma encode_app_inj c d s t : scalar_value c -> scalar_value d -> encode c ++ s = encode d ++ t -> c = d /\ s = t.
Proof.
  intros C D E. assert (L := char_encode c s C). rewrite E, (char_encode d t D) in L.
  assert (EE : encode c = encode d).
  { apply (f_equal (firstn (List.length (encode c)))) in E. rewrite firstn_app_exact in E. rewrite <- L, firstn_app_exact in E. exact E. }
  split; [apply encode_inj; assumption|]. rewrite EE in E. apply app_inv_head in E. exact E.
Qed.

Lemma white_blank_break c s : blank c -> break_len (c :: s) = 0.
Proof.
  intros B. destruct (Nat.eq_dec (break_len (c :: s)) 0) as [E|N]; [exact E|]. exfalso. apply is_break_iff in N.
  rewrite is_blank_not_break in N; [discriminate|]. apply is_blank_iff. eauto.
Qed.
Lemma space_det k n s k' r : space k n s k' r -> forall n2 k2 r2, space k n2 s k2 r2 -> n2 = n /\ k2 = k' /\ r2 = r.
Proof.
  induction 1 as [k s W|k n c s k' r B G IH|k n s k' r B G IH]; intros n2 k2 r2 G2.
  - inversion G2; subst; [auto| |]; exfalso; apply W; [left; eauto|right; assumption].
  - inversion G2; subst.
    + exfalso. match goal with H : ~ white _ |- _ => apply H end. left. eauto.
    + apply IH. assumption.
    + exfalso. match goal with H : break_len _ <> 0 |- _ => apply H end. apply white_blank_break, B.
  - inversion G2; subst.
    + exfalso. match goal with H : ~ white _ |- _ => apply H end. right. assumption.
    + exfalso. apply B. apply white_blank_break. assumption.
    + match goal with H : space 0 _ _ _ _ |- _ => destruct (IH _ _ _ H) as (-> & -> & ->) end. auto.
Qed.
Lemma space_white k n s k' r : space k n s k' r -> s <> r -> white s.
Proof. intros G. inversion G; subst; [congruence|left; eauto|right; assumption]. Qed.
Lemma space_broken k n s k' r : space k (S n) s k' r -> white s.
Proof. intros G. inversion G; subst; [left; eauto|right; assumption]. Qed.
Lemma closed_not_white flow s : closed flow s -> ~ white s /\ s <> [].
Proof.
  intros H. assert (exists c r, s = c :: r /\ In c (58 :: flow_indicators)%N) as (c & r & -> & I).
  { destruct H as [(r & -> & _)|(_ & c & r & -> & I)]; [exists 58%N, r|exists c, r]; split; auto; [left; reflexivity|right; exact I]. }
  split; [|discriminate]. apply not_white. cbn in I.
  destruct I as [<-|[<-|[<-|[<-|[<-|[<-|[]]]]]]]; reflexivity.
Qed.
Lemma app_ne (g s : str) : g <> [] -> g ++ s <> s.
Proof. intros NE E. apply (f_equal (@List.length N)) in E. rewrite app_length in E. destruct g; [congruence|cbn [List.length] in E; lia]. Qed.

Lemma plain_det flow indent k s v r : plain flow indent k s v r ->
  forall v2 r2, plain flow indent k s v2 r2 -> v2 = v /\ r2 = r.
Proof.
  induction 1 as [k s E|k n s k' s' W SP NG|k c s v r SC NW NC P IH|k g k' s v r NE SP GO P IH|k n s k' s' v r SP GO P IH];
    intros v2 r2 P2.
  - assert (NW : ~ white s) by (destruct E as [->|C]; [intros X; apply white_ne in X; congruence|apply closed_not_white in C; apply C]).
    inversion P2 as [? ? E2|? ? ? ? ? W2 _ _|? c2 s2 ? ? SC2 NW2 NC2 _|? g2 ? s2 ? ? NE2 SP2 _ _|? ? ? ? ? ? ? SP2 _ _]; subst; auto.
    + exfalso. destruct E as [E|C]; [|tauto]. destruct (encode_nonempty c2) as (b & t & X). rewrite X in E. discriminate.
    + exfalso. apply NW, (space_white _ _ _ _ _ SP2), app_ne, NE2.
    + exfalso. apply NW, (space_broken _ _ _ _ _ SP2).
  - inversion P2 as [? ? E2|? ? ? ? ? W2 _ _|? c2 s2 ? ? SC2 NW2 NC2 _|? g2 ? s2 ? ? NE2 SP2 GO2 _|? ? ? ? ? ? ? SP2 GO2 _]; subst; auto.
    + exfalso. tauto.
    + exfalso. destruct (space_det _ _ _ _ _ SP _ _ _ SP2) as (_ & -> & ->). tauto.
    + exfalso. destruct (space_det _ _ _ _ _ SP _ _ _ SP2) as (_ & -> & ->). tauto.
  - remember (encode c ++ s) as s0 eqn:ES.
    inversion P2 as [? ? E2|? ? ? ? ? W2 _ _|? c2 s2 ? ? SC2 NW2 NC2 Q|? g2 ? s2 ? ? NE2 SP2 GO2 Q|? ? ? ? ? ? ? SP2 GO2 Q]; subst.
    + exfalso. destruct E2 as [E2|C]; [|tauto]. destruct (encode_nonempty c) as (b & t & X). rewrite X in E2. discriminate.
    + tauto.
    + destruct (encode_app_inj _ _ _ _ SC2 SC ltac:(eassumption)) as [-> ->]. destruct (IH _ _ Q) as [-> ->]. auto.
    + exfalso. apply NW. match goal with H : g2 ++ s2 = _ |- _ => rewrite <- H end. apply (space_white _ _ _ _ _ SP2), app_ne, NE2.
    + exfalso. apply NW, (space_broken _ _ _ _ _ SP2).
  - remember (g ++ s) as s0 eqn:ES.
    assert (W : white s0) by (apply (space_white _ _ _ _ _ SP); rewrite ES; apply app_ne, NE).
    inversion P2 as [? ? E2|? ? ? ? ? W2 SP2 NG2|? c2 s2 ? ? SC2 NW2 NC2 Q|? g2 ? s2 ? ? NE2 SP2 GO2 Q|? ? ? ? ? ? ? SP2 GO2 Q]; subst.
    + exfalso. destruct E2 as [E2|C]; [rewrite E2 in W; apply white_ne in W; congruence|apply closed_not_white in C as [NW _]; exact (NW W)].
    + exfalso. destruct (space_det _ _ _ _ _ SP _ _ _ SP2) as (_ & -> & ->). tauto.
    + exfalso. apply NW2. match goal with H : _ = g ++ s |- _ => rewrite H end. exact W.
    + match goal with H : g2 ++ s2 = _ |- _ => rewrite H in SP2; destruct (space_det _ _ _ _ _ SP _ _ _ SP2) as (_ & -> & E); subst s2;
        apply app_inv_tail in H as -> end.
      destruct (IH _ _ Q) as [-> ->]. auto.
    + exfalso. destruct (space_det _ _ _ _ _ SP _ _ _ SP2) as (E & _). discriminate.
  - assert (W : white s) by (apply (space_broken _ _ _ _ _ SP)).
    inversion P2 as [? ? E2|? ? ? ? ? W2 SP2 NG2|? c2 s2 ? ? SC2 NW2 NC2 Q|? g2 ? s2 ? ? NE2 SP2 GO2 Q|? ? ? ? ? ? ? SP2 GO2 Q]; subst.
    + exfalso. destruct E2 as [E2|C]; [rewrite E2 in W; apply white_ne in W; congruence|apply closed_not_white in C as [NW _]; exact (NW W)].
    + exfalso. destruct (space_det _ _ _ _ _ SP _ _ _ SP2) as (_ & -> & ->). tauto.
    + tauto.
    + exfalso. destruct (space_det _ _ _ _ _ SP _ _ _ SP2) as (E & _). discriminate.
    + destruct (space_det _ _ _ _ _ SP _ _ _ SP2) as (E & -> & ->). assert (n0 = n) as -> by congruence.
      destruct (IH _ _ Q) as [-> ->]. auto.
Qed.

(** ** Completeness *)
Definition quiet {A} (r : sres A) : Prop := forall e, r = Err e -> e = Extend.
Lemma quiet_bind {A B} (m : sres A) (k : A -> sres B) : quiet m -> (forall a, quiet (k a)) -> quiet (bind m k).
Proof. intros Q K e. destruct m; cbn; intros E; try discriminate; [exact (K _ _ E)|apply Q; congruence]. Qed.
Lemma quiet_loop {S A} (body : S -> sres (step S A)) : (forall s, quiet (body s)) -> forall f s, quiet (loop f body s).
Proof.
  intros Q f. induction f as [|f IH]; intros s e; cbn; [discriminate|].
  destruct (body s) as [[s'|a]|x| |] eqn:E; intros X; try discriminate; [exact (IH _ _ X)|].
  apply (Q s). congruence.
Qed.
Lemma quiet_ok {A} (a : A) : quiet (Ok a). Proof. discriminate. Qed.
Lemma quiet_cache o b n : quiet (cache o b n).
Proof.
  unfold cache. generalize 0. induction n as [|n IH]; intros k; cbn [cache_at]; [apply quiet_ok|].
  repeat match goal with |- context [match ?b with _ => _ end] => destruct b end; try apply quiet_ok; try apply IH; intros e; congruence.
Qed.
Ltac quiet :=
  repeat first
    [ apply quiet_ok | apply quiet_cache
    | match goal with |- quiet (loop _ _ _) => apply quiet_loop; let s := fresh in intros s; repeat destruct s as [s ?] end
    | match goal with |- quiet (bind _ _) => apply quiet_bind; [|let a := fresh in intros a; repeat destruct a as [a ?]] end
    | match goal with |- quiet (if ?b then _ else _) => destruct b end
    | match goal with |- quiet (match ?x with _ => _ end) => destruct x end
    | progress unfold f_adv, f_adv_line, adv, adv_line, skip, chop, slice, p_no_borrow, plain_word_body, plain_word, plain_ws_body, plain_ws, plain_join, plain_body, utf8_unwrap
    | discriminate ].
Lemma eager_quiet o base st indent block e : scan_plain_scalar_eager o base st indent block = Err e ->
  e = Extend \/ e = InvalidPlainScalar.
Proof.
  unfold scan_plain_scalar_eager. intros H.
  destruct (cache o base 2) as [u|x| |] eqn:C; cbn [bind] in H; try discriminate.
  2: { left. apply (quiet_cache o base 2). congruence. }
  destruct (negb block && _ && _); [right; congruence|]. left. revert e H.
  match goal with |- forall e, ?m = Err e -> _ => change (quiet m) end. quiet.
Qed.
