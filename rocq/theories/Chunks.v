(** Owned readers against borrowed readers. *)
From Verif Require Import QuotedFacts FlowFacts Contract StreamFacts.
From Verif Require Import SpecOwned Reader CutFacts CutLeaf CutScalar CutBlock CutScan CutRounds.
From Coq Require Import Lia ZifyBool ZifyN ZifyNat.
Open Scope nat_scope.

(** ** Rounds until the loop of the scanner stops *)
Inductive rounds (o : flags) (start : nat) : ms -> ms -> sres unit -> Prop :=
| rs_stop s : want_more start (m_sc s) (m_q s) = false -> rounds o start s s (Ok tt)
| rs_more s s1 s2 r : want_more start (m_sc s) (m_q s) = true -> scan_next_token o s = (s1, Ok tt) ->
    rounds o start s1 s2 r -> rounds o start s s2 r
| rs_err s s1 r : want_more start (m_sc s) (m_q s) = true -> scan_next_token o s = (s1, r) -> r <> Ok tt ->
    rounds o start s s1 r.

Lemma rounds_det o start s s1 r1 : rounds o start s s1 r1 -> forall s2 r2, rounds o start s s2 r2 -> s1 = s2 /\ r1 = r2.
Proof.
  induction 1 as [s W|s sa s1 r W Q R IH|s s1 r W Q N]; intros s2 r2 R2; destruct R2 as [s W2|s sb s2 r2 W2 Q2 R2|s s2 r2 W2 Q2 N2];
    try congruence; auto.
  - assert (sb = sa) as -> by congruence. auto.
  - split; congruence.
Qed.
Lemma rounds_inv o start s s2 r : rounds o start s s2 r ->
  want_more start (m_sc s) (m_q s) = false /\ s2 = s /\ r = Ok tt \/
  (exists s1, want_more start (m_sc s) (m_q s) = true /\ scan_next_token o s = (s1, Ok tt) /\ rounds o start s1 s2 r) \/
  want_more start (m_sc s) (m_q s) = true /\ scan_next_token o s = (s2, r) /\ r <> Ok tt.
Proof. destruct 1; eauto 8. Qed.
Lemma more_live start sc q : want_more start sc q = true -> sc_state sc <> SDone.
Proof. unfold want_more. intros H D. rewrite D in H. discriminate. Qed.
Lemma valid_suffix a b : valid a -> suffix_of a b -> valid b.
Proof. intros V (n & -> & B). apply valid_skipn; assumption. Qed.

Lemma rounds_start o a s s2 r : rounds o a s s2 r -> valid (m_buf s) -> a < q_len (m_q s) ->
  forall a', a' < q_len (m_q s) -> rounds o a' s s2 r.
Proof.
  assert (WM : forall a a' sc q, a < q_len q -> a' < q_len q -> want_more a sc q = want_more a' sc q).
  { intros x y sc q L L'. unfold want_more. replace (Nat.eqb x (q_len q)) with false by lia. replace (Nat.eqb y (q_len q)) with false by lia. reflexivity. }
  induction 1 as [s W|s sa s1 r W Q R IH|s s1 r W Q N]; intros V L a' L'.
  - apply rs_stop. rewrite <- (WM a a') by assumption. exact W.
  - destruct (round_facts _ _ _ _ V (more_live _ _ _ W) Q) as (SF & _ & _ & LQ & _).
    eapply rs_more; [rewrite <- (WM a a') by assumption; exact W|exact Q|]. apply IH; [eapply valid_suffix; eauto|lia|lia].
  - eapply rs_err; [rewrite <- (WM a a') by assumption; exact W|exact Q|exact N].
Qed.

Definition at0 (b : str) (sc : scanner) (q : tokens) : ms := mkMs b (set_offset 0 sc) q.
Lemma stand_on (T b b' : str) off : get_from T off = Some b -> suffix_of b b' ->
  get_from T (List.length T - List.length b') = Some b'.
Proof.
  unfold get_from. intros G (n & -> & B). destruct (is_boundary T off) eqn:BT; [|discriminate].
  assert (b = skipn off T) as -> by congruence. rewrite skipn_skipn.
  pose proof (boundary_add _ _ _ BT B) as BB. pose proof (boundary_le _ _ BB) as LE.
  rewrite skipn_length. replace (List.length T - (List.length T - (off + n))) with (off + n) by lia.
  rewrite BB. reflexivity.
Qed.
Lemma want_offset start n sc q : want_more start (set_offset n sc) q = want_more start sc q.
Proof. reflexivity. Qed.
Lemma at0_offs lz b sc q : at0 b sc (qseal lz q) = offs lz 0 (mkMs b sc q). Proof. reflexivity. Qed.
Lemma want_seal lz start sc q : want_more start sc (qseal lz q) = want_more start sc q.
Proof. unfold want_more. rewrite qseal_len. reflexivity. Qed.

(** ** The loop over a complete text *)
Lemma fixed_rounds lz o T start : extendable o = false -> forall fuel sc q b,
  get_from T (sc_offset sc) = Some b -> valid b -> left_to_do b sc < fuel ->
  let '(sc', q', r) := scan_loop fuel o T start sc q in
  exists s2, rounds o start (at0 b sc (qseal lz q)) s2 r /\ m_q s2 = qseal lz q' /\ m_sc s2 = set_offset 0 sc' /\ r <> Fuel /\ r <> Err Extend /\
    suffix_of b (m_buf s2) /\ (zsc sc -> zsc sc') /\
    (r = Ok tt -> get_from T (sc_offset sc') = Some (m_buf s2)).
Proof.
  intros NE. induction fuel as [|fuel IH]; intros sc q b G V L; [lia|]. cbn [scan_loop].
  destruct (want_more start sc q) eqn:W.
  2:{ exists (at0 b sc (qseal lz q)). split; [apply rs_stop; cbn [at0 m_sc m_q]; rewrite want_offset, want_seal; exact W|]. repeat split; auto; try discriminate. apply suffix_refl. }
  unfold scan_round. rewrite G. destruct (scan_next_token o (mkMs b sc q)) as [s1 r] eqn:Q.
  pose proof (more_live _ _ _ W) as ND.
  destruct (round_facts o (mkMs b sc q) s1 r V ND Q) as (SF & RO & KZ & LQ & NF & OKF & EXF). cbn [m_buf m_sc m_q] in *.
  pose proof (far_round o lz (or_intror NE) (mkMs b sc q) 0) as FR. rewrite Q in FR. cbn [fst snd] in FR. rewrite <- at0_offs in FR.
  assert (W' : want_more start (m_sc (at0 b sc (qseal lz q))) (m_q (at0 b sc (qseal lz q))) = true).
  { cbn [at0 m_sc m_q]. rewrite want_offset, want_seal. exact W. }
  destruct r as [[]|e| |].
  - specialize (OKF eq_refl).
    set (sc1 := set_offset (List.length T - List.length (m_buf s1)) (m_sc s1)).
    specialize (IH sc1 (m_q s1) (m_buf s1)).
    destruct (scan_loop fuel o T start sc1 (m_q s1)) as [[sc' q'] r'].
    destruct IH as (s2 & R & H1 & H2 & H3 & H4 & H5 & H6 & H7).
    { cbn. eapply stand_on; eauto. } { eapply valid_suffix; eauto. }
    { unfold left_to_do in *. cbn in *. lia. }
    exists s2. split; [eapply rs_more; [exact W'|exact FR|exact R]|]. split; [exact H1|]. split; [exact H2|].
    split; [exact H3|]. split; [exact H4|]. split; [eapply suffix_trans; eauto|]. split; [auto|exact H7].
  - assert (e <> Extend) as NX by (intros ->; destruct (EXF eq_refl); congruence).
    assert (match e with Extend => set_offset (List.length T - List.length (m_buf s1)) (m_sc s1) | _ => m_sc s1 end = m_sc s1) as -> by (destruct e; congruence).
    exists (offs lz 0 s1). split; [eapply rs_err; [exact W'|exact FR|discriminate]|].
    split; [reflexivity|]. split; [reflexivity|]. split; [discriminate|]. split; [congruence|]. split; [exact SF|]. split; [exact KZ|]. discriminate.
  - exists (offs lz 0 s1). split; [eapply rs_err; [exact W'|exact FR|discriminate]|].
    split; [reflexivity|]. split; [reflexivity|]. split; [discriminate|]. split; [discriminate|]. split; [exact SF|]. split; [exact KZ|]. discriminate.
  - congruence.
Qed.

(** ** The loop over the first part of a text *)
Lemma ext_rounds lz o o' H R start : extendable o = true -> lazy_mode o = lz -> lazy_mode o' = lz -> extendable o' = false ->
  forall fuel sc q b, get_from H (sc_offset sc) = Some b -> cut R b -> (lz = true -> noret b) -> zsc sc -> left_to_do b sc < fuel -> start <= q_len q ->
  let '(sc', q', r) := scan_loop fuel o H start sc q in
  match r with
  | Ok _ => exists b', get_from H (sc_offset sc') = Some b' /\ cut R b' /\ zsc sc' /\ suffix_of b b' /\
      rounds o' start (at0 (b ++ R) sc (qseal lz q)) (at0 (b' ++ R) sc' (qseal lz q')) (Ok tt)
  | Err Extend => exists b', get_from H (sc_offset sc') = Some b' /\ cut R b' /\ zsc sc' /\ suffix_of b b' /\
      forall s2 r2, rounds o' (q_len q') (at0 (b' ++ R) sc' (qseal lz q')) s2 r2 -> rounds o' start (at0 (b ++ R) sc (qseal lz q)) s2 r2
  | Fuel => False
  | r => exists s2, rounds o' start (at0 (b ++ R) sc (qseal lz q)) s2 r /\ m_q s2 = qseal lz q'
  end.
Proof.
  intros E LZ LZ' NX'. induction fuel as [|fuel IH]; intros sc q b G C NR Z L LS; [lia|]. cbn [scan_loop].
  destruct (want_more start sc q) eqn:W.
  2:{ exists b. split; [exact G|]. split; [exact C|]. split; [exact Z|]. split; [apply suffix_refl|]. apply rs_stop. cbn [at0 m_sc m_q]. rewrite want_offset, want_seal. exact W. }
  unfold scan_round. rewrite G. destruct (scan_next_token o (mkMs b sc q)) as [s1 r] eqn:Q.
  pose proof (more_live _ _ _ W) as ND. pose proof (cut_valid _ _ C) as V.
  destruct (round_facts o (mkMs b sc q) s1 r V ND Q) as (SF & RO & KZ & LQ & NF & OKF & EXF). cbn [m_buf m_sc m_q] in *.
  pose proof (round_grow R 0 lz o o' (mkMs b sc q) E LZ LZ' NX' C Z ND NR) as MS. unfold msim in MS. rewrite Q in MS.
  change (mgrow R 0 lz (mkMs b sc q)) with (at0 (b ++ R) sc (qseal lz q)) in MS.
  assert (W' : want_more start (m_sc (at0 (b ++ R) sc (qseal lz q))) (m_q (at0 (b ++ R) sc (qseal lz q))) = true).
  { cbn [at0 m_sc m_q]. rewrite want_offset, want_seal. exact W. }
  destruct r as [[]|e| |].
  - specialize (OKF eq_refl). destruct MS as ([] & MS & C1 & _).
    set (sc1 := set_offset (List.length H - List.length (m_buf s1)) (m_sc s1)).
    specialize (IH sc1 (m_q s1) (m_buf s1)).
    destruct (scan_loop fuel o H start sc1 (m_q s1)) as [[sc' q'] r'].
    assert (MORE : forall s2 r2, rounds o' start (at0 (m_buf s1 ++ R) sc1 (qseal lz (m_q s1))) s2 r2 -> rounds o' start (at0 (b ++ R) sc (qseal lz q)) s2 r2).
    { intros s2 r2 RR. eapply rs_more; [exact W'|exact MS|exact RR]. }
    specialize (IH ltac:(cbn; eapply stand_on; eauto) C1 (fun Y => noret_suffix _ _ SF (NR Y)) (KZ Z) ltac:(unfold left_to_do in *; cbn in *; lia) ltac:(lia)).
    destruct r' as [[]|e| |].
    + destruct IH as (b' & G' & C' & Z' & S' & R'). exists b'. split; [exact G'|]. split; [exact C'|]. split; [exact Z'|].
      split; [eapply suffix_trans; eauto|]. apply MORE, R'.
    + destruct e; try (destruct IH as (s2 & R' & HQ); exists s2; split; [apply MORE, R'|exact HQ]).
      destruct IH as (b' & G' & C' & Z' & S' & R'). exists b'. split; [exact G'|]. split; [exact C'|]. split; [exact Z'|].
      split; [eapply suffix_trans; eauto|]. intros s2 r2 RR. apply MORE, R', RR.
    + destruct IH as (s2 & R' & HQ). exists s2. split; [apply MORE, R'|exact HQ].
    + exact IH.
  - assert (DEC : e = Extend \/ e <> Extend) by (destruct e; auto; right; discriminate). destruct DEC as [->|NX].
    + destruct (EXF eq_refl) as (_ & ST).
      destruct (retry R 0 lz o o' (mkMs b sc q) s1 E LZ LZ' NX' C Z ND Q) as (C1 & RT).
      exists (m_buf s1). split; [cbn; eapply stand_on; eauto|]. split; [exact C1|]. split; [exact (KZ Z)|]. split; [exact SF|].
      change (mgrow R 0 lz (mkMs b sc q)) with (at0 (b ++ R) sc (qseal lz q)) in RT.
      set (sc1 := set_offset (List.length H - List.length (m_buf s1)) (m_sc s1)).
      change (mgrow R 0 lz s1) with (at0 (m_buf s1 ++ R) sc1 (qseal lz (m_q s1))) in RT.
      assert (V1 : valid (m_buf s1 ++ R)) by (apply valid_app; apply C1).
      assert (ND1 : sc_state (set_offset 0 sc1) <> SDone) by (cbn; congruence).
      intros s2 r2 RR. apply rounds_inv in RR. destruct RR as [(W2 & _)|[(s3 & _ & Q2 & RR)|(_ & Q2 & N2)]].
      * exfalso. unfold want_more in W2. cbn [at0 m_sc m_q] in W2. rewrite qseal_len, Nat.eqb_refl in W2.
        destruct (sc_state (set_offset 0 sc1)); discriminate || congruence.
      * destruct (round_facts o' (at0 (m_buf s1 ++ R) sc1 (qseal lz (m_q s1))) _ _ V1 ND1 Q2) as (SF2 & _ & _ & _ & _ & OKF2 & _).
        destruct (OKF2 eq_refl) as (LQ2 & _). cbn [at0 m_q m_buf] in LQ2, SF2. rewrite qseal_len in LQ2.
        eapply rs_more; [exact W'|rewrite <- RT; exact Q2|].
        eapply rounds_start; [exact RR|eapply valid_suffix; eauto|exact LQ2|lia].
      * eapply rs_err; [exact W'|rewrite <- RT; exact Q2|exact N2].
    + assert (MS' : scan_next_token o' (at0 (b ++ R) sc (qseal lz q)) = (mgrow R 0 lz s1, Err e)) by (destruct e; auto; congruence).
      assert (exists s2, rounds o' start (at0 (b ++ R) sc (qseal lz q)) s2 (Err e) /\ m_q s2 = qseal lz (m_q s1)).
      { exists (mgrow R 0 lz s1). split; [|reflexivity]. eapply rs_err; [exact W'|exact MS'|discriminate]. }
      destruct e; try exact H0. congruence.
  - exists (mgrow R 0 lz s1). split; [|reflexivity]. eapply rs_err; [exact W'|exact MS|discriminate].
  - congruence.
Qed.

(** ** Sources *)
Lemma read_data_spec : forall b cap t r c, read_data cap b = (t, r, c) ->
  b = t ++ r /\ t = firstn (N.to_nat cap) b /\ c = (cap - N.of_nat (List.length t))%N /\ (r <> [] -> c = 0%N).
Proof.
  induction b as [|x b IH]; intros cap t r c; cbn [read_data]; intros Q.
  - assert (t = []) as -> by congruence. assert (r = []) as -> by congruence. assert (c = cap) as -> by congruence.
    rewrite firstn_nil. cbn. repeat split; auto; [lia|congruence].
  - destruct (N.eqb_spec cap 0) as [->|NZ].
    + assert (t = []) as -> by congruence. assert (r = x :: b) as -> by congruence. assert (c = 0%N) as -> by congruence. cbn. auto.
    + destruct (read_data (cap - 1) b) as [[t1 r1] c1] eqn:RD. destruct (IH _ _ _ _ RD) as (E1 & E2 & E3 & E4).
      assert (t = x :: t1) as -> by congruence. assert (r = r1) as -> by congruence. assert (c = c1) as -> by congruence.
      split; [cbn; congruence|]. split.
      { replace (N.to_nat cap) with (S (N.to_nat (cap - 1))) by lia. cbn [firstn]. congruence. }
      split; [cbn [List.length]; lia|exact E4].
Qed.
Lemma read_upto_spec : forall src cap, steady src -> let '(t, src', e) := read_upto cap src in
  e = false /\ steady src' /\ bytes_of src = t ++ bytes_of src' /\ t = firstn (N.to_nat cap) (bytes_of src) /\ src_size src' + List.length t <= src_size src.
Proof.
  induction src as [|i src IH]; intros cap P.
  - cbn. destruct (cap =? 0)%N; cbn; rewrite ?firstn_nil; auto.
  - pose proof P as P0. apply Forall_cons_iff in P. destruct P as ((x & r & ->) & P). cbn [read_upto].
    destruct (N.eqb_spec cap 0) as [->|NZ].
    + cbn [app firstn N.to_nat List.length]. split; [reflexivity|]. split; [exact P0|]. split; [reflexivity|]. split; [reflexivity|]. lia.
    + destruct (read_data cap (x :: r)) as [[t rest] c] eqn:RD. destruct (read_data_spec _ _ _ _ _ RD) as (E1 & E2 & E3 & E4).
      destruct rest as [|y rest].
      * rewrite app_nil_r in E1. specialize (IH c P). destruct (read_upto c src) as [[t' src'] e].
        destruct IH as (-> & P' & B' & F' & L'). split; [reflexivity|]. split; [exact P'|].
        cbn [bytes_of flat_map]. change (flat_map (fun i => match i with Data b => b | IoErr => [] end) src) with (bytes_of src).
        split; [rewrite B', <- app_assoc; congruence|]. split.
        { rewrite firstn_app, <- E2. f_equal. rewrite F'. f_equal. rewrite E1. lia. }
        { cbn [src_size fold_right]. change (fold_right (fun i n => match i with Data b => S (List.length b) + n | IoErr => S n end) 1 src) with (src_size src).
          rewrite app_length. rewrite E1. lia. }
      * split; [reflexivity|]. split; [constructor; [eauto|exact P]|]. cbn [bytes_of flat_map].
        split; [rewrite E1, <- app_assoc; reflexivity|]. split.
        { rewrite E1. rewrite <- app_assoc, firstn_app. pose proof (E4 ltac:(discriminate)) as C0.
          assert (N.to_nat cap <= List.length t) as LE by lia.
          replace (N.to_nat cap - List.length t) with 0 by lia. cbn [firstn]. rewrite app_nil_r.
          rewrite firstn_all2; [reflexivity|]. rewrite E2, firstn_length. lia. }
        { cbn [src_size fold_right]. rewrite E1. rewrite app_length. lia. }
Qed.

(** ** Driving the scanner *)
Definition rest_of (w : owned) : str := bytes_of (o_src w).
(** the reader has not started, or has everything *)
Definition whole (w : owned) : Prop :=
  o_head w = [] /\ o_tail w = [] /\ short (rest_of w) \/ rest_of w = [].
Definition in_step (lz : bool) (w : owned) (b : str) (F : Prop) : Prop :=
  steady (o_src w) /\ (lz = true -> noret (b ++ rest_of w)) /\ (o_exhausted w = true -> rest_of w = []) /\ cut (rest_of w) b /\
  (F -> ascii (b ++ rest_of w) \/ whole w).

Lemma suffix_app a b R : suffix_of a b -> exists p, a ++ R = p ++ b ++ R.
Proof. intros (n & -> & _). exists (firstn n a). rewrite app_assoc, firstn_skipn. reflexivity. Qed.
Lemma in_step_move lz w b b' F : in_step lz w b F -> suffix_of b b' -> cut (rest_of w) b' -> in_step lz w b' F.
Proof.
  intros (S & NR & X & C & A) SF C'. destruct (suffix_app b b' (rest_of w) SF) as (p & E).
  split; [exact S|]. split; [intros Y I; apply (NR Y); rewrite E; apply in_or_app; auto|]. split; [exact X|]. split; [exact C'|].
  intros f. destruct (A f) as [A1|A1]; [left|right; exact A1]. rewrite E in A1. apply Forall_app in A1. apply A1.
Qed.
Lemma cap_pos tail mark : (8192 <= chunk_cap tail mark)%N.
Proof.
  unfold chunk_cap, next_pow2. set (n := (8192 * N.max (N.of_nat tail) 1 + N.of_nat mark)%N).
  assert (8192 <= n)%N as L by (unfold n; lia). pose proof (N.log2_up_spec n ltac:(lia)). lia.
Qed.

(** One refill. *)
Lemma refill lz w mark b F : get_from (o_head w) mark = Some b -> in_step lz w b F -> o_exhausted w = false ->
  match refresh_buffer w mark with
  | (w', Ok _) => b ++ rest_of w = o_head w' ++ rest_of w' /\ in_step lz w' (o_head w') F /\
      (o_exhausted w' = true \/ List.length (rest_of w') < List.length (rest_of w))
  | (w', Err e) => e = RUtf8 /\ ~ F
  | _ => False
  end.
Proof.
  intros G (S & NR & X & C & A) EX. unfold get_from in G. destruct (is_boundary (o_head w) mark) eqn:BD; [|discriminate].
  assert (b = skipn mark (o_head w)) as Eb by congruence. pose proof (boundary_le _ _ BD) as LE.
  unfold refresh_buffer. replace (Nat.leb mark (List.length (o_head w))) with true by lia.
  pose proof (read_upto_spec (o_src w) (chunk_cap (List.length (o_tail w)) mark) S) as RU. pose proof (cap_pos (List.length (o_tail w)) mark) as CP.
  destruct (read_upto (chunk_cap (List.length (o_tail w)) mark) (o_src w)) as [[t src'] e]. destruct RU as (-> & S' & B' & F' & L').
  rewrite <- Eb. fold (rest_of w) in *. 
  assert (EQ : b ++ rest_of w = (b ++ t) ++ bytes_of src') by (rewrite B', app_assoc; reflexivity).
  assert (VW : valid (b ++ rest_of w)) by (apply valid_app; apply C).
  assert (WH : whole w -> bytes_of src' = [] /\ b ++ t = b ++ rest_of w).
  { intros [(H0 & T0 & SH)|R0].
    - assert (t = rest_of w) as Et.
      { rewrite F'. apply firstn_all2. unfold short in SH. lia. }
      split; [|congruence]. rewrite Et in B'. rewrite <- (app_nil_r (rest_of w)) in B' at 1. apply app_inv_head in B'. auto.
    - rewrite R0 in B'. symmetry in B'. apply app_eq_nil in B'. destruct B' as (-> & ->). rewrite R0. auto. }
  destruct (valid_utf8 (b ++ t)) eqn:VU.
  - cbn [o_head]. unfold rest_of at 2. cbn [o_src]. split; [exact EQ|]. split.
    + split; [exact S'|]. split; [cbn [o_head]; unfold rest_of; cbn [o_src]; rewrite <- EQ; exact NR|]. split; [|split].
      * cbn [o_exhausted]. unfold rest_of. cbn [o_src]. destruct t; [|discriminate]. intros _. cbn [app] in B'.
        symmetry in F'. destruct (rest_of w) as [|x r]; [congruence|].
        assert (N.to_nat (chunk_cap (List.length (o_tail w)) mark) = Datatypes.S (N.to_nat (chunk_cap (List.length (o_tail w)) mark) - 1)) as Q by lia.
        rewrite Q in F'. discriminate.
      * unfold rest_of. cbn [o_src]. split; [exact VU|]. eapply valid_tail; [exact VU|rewrite <- EQ; exact VW].
      * intros f. unfold rest_of at 1. cbn [o_src]. rewrite <- EQ. destruct (A f) as [A1|A1]; [left; exact A1|].
        right. right. unfold rest_of. cbn [o_src]. apply WH, A1.
    + cbn [o_exhausted]. destruct t as [|x t]; [left; reflexivity|right]. unfold rest_of at 1. cbn [o_src].
      rewrite B'. cbn [app List.length]. rewrite app_length. lia.
  - split; [reflexivity|]. intros f. destruct (A f) as [A1|A1].
    + assert (valid (b ++ t)); [|unfold valid in *; congruence]. apply valid_ascii. rewrite EQ in A1. apply Forall_app in A1. apply A1.
    + destruct (WH A1) as (_ & E1). rewrite E1 in VU. unfold valid in VW. congruence.
Qed.

Lemma drive_rounds lz opts F : lazy_mode opts = lz -> forall fuel w sc q b,
  get_from (o_head w) (sc_offset sc) = Some b -> in_step lz w b F -> zsc sc ->
  (if o_exhausted w then 0 else S (List.length (rest_of w))) < fuel ->
  let '(w', sc', q', x) := drive_owned fuel opts w sc q in
  x = Err RUtf8 /\ ~ F \/
  exists s2 r, rounds (no_extend opts) (q_len q) (at0 (b ++ rest_of w) sc (qseal lz q)) s2 r /\ m_q s2 = qseal lz q' /\ x = map_err RScan r /\
    (r = Ok tt -> m_sc s2 = set_offset 0 sc' /\ zsc sc' /\
       exists b', get_from (o_head w') (sc_offset sc') = Some b' /\ in_step lz w' b' F /\ m_buf s2 = b' ++ rest_of w').
Proof.
  intros LZ. induction fuel as [|fuel IH]; intros w sc q b G I Z L; [lia|]. cbn [drive_owned].
  pose proof I as (S & NR & X & C & A). assert (NB : lz = true -> noret b) by (intros Y J; apply (NR Y); apply in_or_app; auto).
  assert (LT : left_to_do b sc < List.length (o_head w) + 3).
  { unfold left_to_do. unfold get_from in G. destruct (is_boundary (o_head w) (sc_offset sc)); [|discriminate].
    assert (b = skipn (sc_offset sc) (o_head w)) as -> by congruence. rewrite skipn_length. lia. }
  destruct (o_exhausted w) eqn:EX.
  - cbn [negb]. rewrite LZ.
    assert (R0 : rest_of w = []) by auto.
    assert (NE : no_extend opts = mkFlags false lz) by (unfold no_extend; rewrite LZ; reflexivity).
    pose proof (fixed_rounds lz (mkFlags false lz) (o_head w) (q_len q) eq_refl _ sc q b G (cut_valid _ _ C) LT) as FX.
    unfold scan_tokens. destruct (scan_loop (List.length (o_head w) + 3) (mkFlags false lz) (o_head w) (q_len q) sc q) as [[sc' q'] r].
    destruct FX as (s2 & RR & HQ & HS & NF & NX & SF & ZZ & GG).
    rewrite NE, R0, app_nil_r.
    assert (FIN : exists s2 r0, rounds (mkFlags false lz) (q_len q) (at0 b sc (qseal lz q)) s2 r0 /\ m_q s2 = qseal lz q' /\ map_err RScan r = map_err RScan r0 /\
      (r0 = Ok tt -> m_sc s2 = set_offset 0 sc' /\ zsc sc' /\
       exists b', get_from (o_head w) (sc_offset sc') = Some b' /\ in_step lz w b' F /\ m_buf s2 = b' ++ rest_of w)).
    { exists s2, r. split; [exact RR|]. split; [exact HQ|]. split; [reflexivity|]. intros ->. split; [exact HS|]. split; [auto|].
      exists (m_buf s2). split; [auto|]. split; [|rewrite R0, app_nil_r; reflexivity].
      eapply in_step_move; [exact I|exact SF|]. rewrite R0. split; [eapply valid_suffix; [eapply cut_valid; exact C|exact SF]|].
      reflexivity. }
    destruct r as [[]|e| |]; [right; exact FIN| |right; exact FIN|congruence].
    destruct e; try (right; exact FIN). congruence.
  - cbn [negb]. rewrite LZ. set (o := mkFlags true lz).
    assert (LZ' : lazy_mode (no_extend opts) = lz) by exact LZ.
    pose proof (ext_rounds lz o (no_extend opts) (o_head w) (rest_of w) (q_len q) eq_refl eq_refl LZ' eq_refl _ sc q b G C NB Z LT (le_n _)) as ER.
    unfold scan_tokens. destruct (scan_loop (List.length (o_head w) + 3) o (o_head w) (q_len q) sc q) as [[sc' q'] r].
    destruct r as [[]|e| |].
    + destruct ER as (b' & G' & C' & Z' & SF & RR). right. exists (at0 (b' ++ rest_of w) sc' (qseal lz q')), (Ok tt).
      split; [exact RR|]. split; [reflexivity|]. split; [reflexivity|]. intros _. split; [reflexivity|]. split; [exact Z'|].
      exists b'. split; [exact G'|]. split; [eapply in_step_move; eauto|reflexivity].
    + assert (DEC : e = Extend \/ e <> Extend) by (destruct e; auto; right; discriminate). destruct DEC as [->|NX].
      * destruct ER as (b' & G' & C' & Z' & SF & RR).
        pose proof (refill lz w (sc_offset sc') b' F G' (in_step_move lz _ _ _ _ I SF C') EX) as RF.
        destruct (refresh_buffer w (sc_offset sc')) as [w' [[]|e| |]]; [| |contradiction|contradiction].
        -- destruct RF as (EQ & I' & LW).
           specialize (IH w' (set_offset 0 sc') q' (o_head w')).
           assert (G0 : get_from (o_head w') (sc_offset (set_offset 0 sc')) = Some (o_head w')) by reflexivity.
           specialize (IH G0 I' Z').
           assert ((if o_exhausted w' then 0 else Datatypes.S (List.length (rest_of w'))) < fuel) as LF.
           { destruct LW as [->|LW]; [lia|]. destruct (o_exhausted w'); lia. }
           specialize (IH LF). destruct (drive_owned fuel opts w' (set_offset 0 sc') q') as [[[w2 sc2] q2] x].
           destruct IH as [IH|(s2 & r & R2 & H1 & H2 & H3)]; [left; exact IH|right].
           exists s2, r. split; [|auto]. apply RR. rewrite EQ. exact R2.
        -- left. destruct RF as (-> & NF). auto.
      * assert (exists s2, rounds (no_extend opts) (q_len q) (at0 (b ++ rest_of w) sc (qseal lz q)) s2 (Err e) /\ m_q s2 = qseal lz q') as (s2 & RR & HQ)
          by (destruct e; auto; congruence).
        destruct e; try congruence; right; exists s2; eexists; (split; [exact RR|]); (split; [exact HQ|]); (split; [reflexivity|]); discriminate.
    + destruct ER as (s2 & RR & HQ). right. exists s2, Panic. split; [exact RR|]. split; [exact HQ|]. split; [reflexivity|]. discriminate.
    + contradiction.
Qed.

(** ** Readers *)
Definition twins (lz : bool) (rb ro : reader) (F : Prop) : Prop :=
  exists T w b b0, r_in rb = Borrow T /\ r_in ro = Own w /\ r_q rb = qseal lz (r_q ro) /\ r_exhausted rb = r_exhausted ro /\
    r_opts rb = r_opts ro /\ lazy_mode (r_opts ro) = lz /\ set_offset 0 (r_sc rb) = set_offset 0 (r_sc ro) /\
    zsc (r_sc ro) /\ get_from T (sc_offset (r_sc rb)) = Some b0 /\ get_from (o_head w) (sc_offset (r_sc ro)) = Some b /\
    in_step lz w b F /\ b0 = b ++ rest_of w.

Lemma size_rest src : List.length (bytes_of src) < src_size src.
Proof.
  induction src as [|i src IH]; [cbn; lia|]. unfold bytes_of, src_size in *. cbn [flat_map fold_right].
  rewrite app_length. destruct i; cbn [List.length] in *; lia.
Qed.

Lemma twins_scan lz rb ro F : twins lz rb ro F ->
  let (rb', xb) := reader_scan rb in let (ro', xo) := reader_scan ro in
  xo = Err RUtf8 /\ ~ F \/ xb = xo /\ (xb = Ok tt -> twins lz rb' ro' F) /\ xb <> Fuel.
Proof.
  intros (T & w & b & b0 & HB & HO & HQ & HX & HOP & LZ & HS & Z & GT & G & I & EB).
  assert (QL : q_len (r_q rb) = q_len (r_q ro)) by (rewrite HQ; apply qseal_len).
  unfold reader_scan. rewrite HB, HO, HX, HOP. unfold drive.
  assert (VB : valid b0) by (rewrite EB; apply valid_app; apply I).
  assert (LT : left_to_do b0 (r_sc rb) < List.length T + 3).
  { unfold left_to_do. unfold get_from in GT. destruct (is_boundary T (sc_offset (r_sc rb))); [|discriminate].
    assert (b0 = skipn (sc_offset (r_sc rb)) T) as -> by congruence. rewrite skipn_length. lia. }
  pose proof (fixed_rounds false (no_extend (r_opts ro)) T (q_len (r_q rb)) eq_refl _ (r_sc rb) (r_q rb) b0 GT VB LT) as FX.
  unfold scan_tokens. destruct (scan_loop (List.length T + 3) (no_extend (r_opts ro)) T (q_len (r_q rb)) (r_sc rb) (r_q rb)) as [[scb qb] rr].
  destruct FX as (s2 & RR & HQ2 & HS2 & NF & NX & SF & ZZ & GG).
  pose proof (drive_rounds lz (r_opts ro) F LZ (S (S (src_size (o_src w)))) w (r_sc ro) (r_q ro) b G I Z) as DR.
  assert ((if o_exhausted w then 0 else S (List.length (rest_of w))) < S (S (src_size (o_src w)))) as LF.
  { pose proof (size_rest (o_src w)) as SZ. fold (rest_of w) in SZ. destruct (o_exhausted w); lia. }
  specialize (DR LF).
  destruct (drive_owned (S (S (src_size (o_src w)))) (r_opts ro) w (r_sc ro) (r_q ro)) as [[[w' sco] qo] xo].
  destruct DR as [DR|(s3 & r3 & R3 & HQ3 & HX3 & OK3)]; [left; exact DR|right].
  assert (at0 (b ++ rest_of w) (r_sc ro) (qseal lz (r_q ro)) = at0 b0 (r_sc rb) (r_q rb)) as EA
    by (unfold at0; rewrite HS, EB, HQ; reflexivity).
  rewrite EA, <- QL in R3. destruct (rounds_det _ _ _ _ _ R3 _ _ RR) as (-> & ->).
  split; [symmetry; exact HX3|]. split; [|destruct rr; cbn; congruence].
  intros HOK. assert (rr = Ok tt) as -> by (destruct rr as [[]| | |]; cbn in HOK; congruence).
  destruct (OK3 eq_refl) as (HS3 & Z3 & b' & G' & I' & HB').
  subst xo. cbn [map_err]. exists T, w', b', (m_buf s2). cbn [r_in r_q r_exhausted r_opts r_sc].
  assert (HQB : qb = qseal lz qo) by (rewrite <- HQ3; symmetry; exact HQ2).
  assert (QL' : q_len qb = q_len qo) by (rewrite HQB; apply qseal_len).
  rewrite QL, QL'. repeat (split; [first [reflexivity|assumption|congruence|auto]|]). exact HB'.
Qed.

Lemma twins_pull lz rb ro q q' F : q = qseal lz q' -> twins lz rb ro F ->
  twins lz (mkReader (r_sc rb) q (r_opts rb) (r_exhausted rb) (r_in rb)) (mkReader (r_sc ro) q' (r_opts ro) (r_exhausted ro) (r_in ro)) F.
Proof.
  intros EQ (T & w & b & b0 & HB & HO & HQ & HX & HOP & LZ & HS & Z & GT & G & I & EB).
  exists T, w, b, b0. cbn. auto 20.
Qed.
(** Taking one entry from each. *)
Lemma twins_pop lz rb ro F : twins lz rb ro F ->
  fst (q_pop entry_cmp (r_q rb)) = option_map (eseal lz) (fst (q_pop entry_cmp (r_q ro))) /\
  snd (q_pop entry_cmp (r_q rb)) = qseal lz (snd (q_pop entry_cmp (r_q ro))).
Proof.
  intros (T & w & b & b0 & HB & HO & HQ & _). rewrite HQ, qseal_pop. split; reflexivity.
Qed.

(** Outcomes, up to the options of deferred scalars. *)
Definition alike_seal (lz : bool) (x y : rres reader) : Prop :=
  match x, y with
  | Ok r, Ok r' => pending r' = map (eseal lz) (pending r) /\ reader_exhausted r = reader_exhausted r'
  | Err e, Err e' => e = e'
  | Panic, Panic => True
  | _, _ => False
  end.
Lemma eseal_heap lz q : map (eseal lz) (map snd (q_heap q)) = map snd (q_heap (qseal lz q)).
Proof.
  destruct lz; [|unfold qseal, eseal; rewrite map_id; reflexivity]. unfold qseal. cbn [q_heap]. rewrite !map_map. reflexivity.
Qed.
Lemma twins_consume lz F : forall s rb ro, twins lz rb ro F ->
  let (lb, xb) := consumes rb s in let (lo, xo) := consumes ro s in
  xo = Err RUtf8 /\ ~ F /\ (exists l, lb = map (eseal lz) lo ++ l) \/
  lb = map (eseal lz) lo /\ alike_seal lz xo xb /\ xb <> Fuel.
Proof.
  induction s as [|[] s IH]; intros rb ro TW; cbn [consumes].
  - right. split; [reflexivity|]. split; [|discriminate].
    destruct TW as (T & w & b & b0 & HB & HO & HQ & HX & _). cbn. unfold pending, reader_exhausted. rewrite !eseal_heap, HQ, HX, qseal_len. auto.
  - pose proof (twins_scan lz rb ro F TW) as SC. destruct (reader_scan rb) as [rb' xb]. destruct (reader_scan ro) as [ro' xo].
    destruct SC as [(-> & NF)|(<- & TW' & NFU)].
    + match goal with |- let (_, _) := ?m in _ => destruct m as [l x] end.
      left. split; [reflexivity|]. split; [exact NF|]. exists l. reflexivity.
    + destruct xb as [[]| | |]; [apply IH; auto|right; cbn; repeat split; auto; discriminate..|congruence].
  - pose proof (twins_pop lz rb ro F TW) as (PE & PQ).
    destruct (q_pop entry_cmp (r_q rb)) as [eb qb]. destruct (q_pop entry_cmp (r_q ro)) as [eo qo]. cbn [fst snd] in PE, PQ.
    specialize (IH _ _ (twins_pull lz _ _ qb qo F PQ TW)).
    destruct (consumes (mkReader (r_sc rb) qb (r_opts rb) (r_exhausted rb) (r_in rb)) s) as [lb xb].
    destruct (consumes (mkReader (r_sc ro) qo (r_opts ro) (r_exhausted ro) (r_in ro)) s) as [lo xo].
    destruct IH as [(-> & NF & l & ->)|(-> & AL & NFU)]; [left|right; split; [|auto]; subst eb; destruct eo; reflexivity].
    split; [reflexivity|]. split; [exact NF|]. exists l. subst eb. destruct eo; reflexivity.
Qed.

Lemma twins_start lz t src o : steady src -> bytes_of src = t -> valid t -> lazy_mode o = lz -> (lz = true -> noret t) ->
  twins lz (open t o) (pour src o) (ascii t \/ short t).
Proof.
  intros S B V LZ NR. assert (R : rest_of (owned_new src) = t) by exact B.
  exists t, (owned_new src), [], t. unfold in_step, whole. rewrite R. cbn [o_head o_tail o_exhausted o_src owned_new app].
  repeat split; auto; try discriminate; [destruct lz; reflexivity|].
  intros [?|?]; auto.
Qed.

Lemma owned_sealed lz t src o : steady src -> bytes_of src = t -> valid t -> lazy_mode o = lz -> (lz = true -> noret t) ->
  forall s l x l' x', consumes (pour src o) s = (l, x) -> consumes (open t o) s = (l', x') ->
  x = Err RUtf8 /\ ~ (ascii t \/ short t) /\ (exists r, l' = map (eseal lz) l ++ r) \/
  l' = map (eseal lz) l /\ alike_seal lz x x'.
Proof.
  intros S B V LZ NR s l x l' x' E E'.
  pose proof (twins_consume lz _ s _ _ (twins_start lz t src o S B V LZ NR)) as H. rewrite E, E' in H.
  destruct H as [H|(H & A & _)]; auto.
Qed.
Lemma owned_as_borrowed t src o : steady src -> bytes_of src = t -> valid t -> lazy_mode o = false ->
  forall s l x l' x', consumes (pour src o) s = (l, x) -> consumes (open t o) s = (l', x') ->
  x = Err RUtf8 /\ ~ (ascii t \/ short t) /\ (exists r, l' = l ++ r) \/ l = l' /\ alike x x'.
Proof.
  intros S B V LZ s l x l' x' E E'. pose proof (owned_sealed false t src o S B V LZ ltac:(discriminate) s l x l' x' E E') as H.
  assert (ID : forall l, map (eseal false) l = l) by (intros y; apply map_id). rewrite !ID in H.
  destruct H as [H|(H & A)]; [left; exact H|right]. split; [congruence|]. destruct x, x'; cbn in *; auto. rewrite !ID in A. destruct A; auto.
Qed.
