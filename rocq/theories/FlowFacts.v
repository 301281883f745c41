(** Contracts of quoted scalars. *)
From Verif Require Export TagFacts Flow.
From Verif Require Import Utf8Facts SpecUtf8.
From Coq Require Import Lia ZifyBool ZifyN ZifyNat.
Open Scope nat_scope.

(** ** Valid text *)
Definition valid (s : str) : Prop := valid_utf8 s = true.

Lemma valid_app a b : valid a -> valid b -> valid (a ++ b).
Proof.
  unfold valid. rewrite !valid_iff. intros (p & F & ->) (q & G & ->).
  exists (p ++ q). split; [apply Forall_app; auto|]. rewrite flat_map_app. reflexivity.
Qed.
Lemma valid_ascii a : ascii a -> valid a.
Proof.
  unfold valid. rewrite valid_iff. intros A. exists a. split.
  - eapply Forall_imp; [|exact A]. intros v V. cbv beta in V. unfold scalar_value. lia.
  - induction A as [|v a V A IH]; [reflexivity|]. cbn [flat_map]. rewrite enc1 by lia.
    cbn. f_equal. exact IH.
Qed.
Lemma ascii_repeat b n : (b < 128)%N -> ascii (repeat b n).
Proof. intros H. induction n; constructor; auto. Qed.

(** A valid text followed by at least [n] ASCII bytes. *)
Definition loose (scr : str) (n : nat) : Prop :=
  exists a b, scr = a ++ b /\ valid a /\ ascii b /\ n <= List.length b.

Lemma loose_valid scr n : loose scr n -> valid scr.
Proof. intros (a & b & -> & V & A & _). apply valid_app; [exact V|apply valid_ascii, A]. Qed.
Lemma valid_loose scr : valid scr -> loose scr 0.
Proof. intros V. exists scr, []. rewrite app_nil_r. repeat split; auto. constructor. Qed.
Lemma loose_push scr n t : ascii t -> loose scr n -> loose (scr ++ t) (n + List.length t).
Proof.
  intros T (a & b & -> & V & A & L). exists a, (b ++ t). rewrite app_assoc, app_length.
  repeat split; auto; [apply ascii_app; auto|lia].
Qed.
Lemma loose_le scr n m : m <= n -> loose scr n -> loose scr m.
Proof. intros H (a & b & E & V & A & L). exists a, b. repeat split; auto; lia. Qed.

Lemma chop_leaf o scr n (pan : Prop) : (~ pan -> loose scr n) -> (pan \/ ~ pan) ->
  leaf o (fun r => ~ pan -> valid r) pan (chop scr n).
Proof.
  intros H D. unfold chop. destruct (Nat.leb n (List.length scr)) eqn:E; cbn [leaf].
  - intros N. destruct (H N) as (a & b & -> & V & A & L). rewrite app_length, firstn_app.
    rewrite firstn_all2 by lia. apply valid_app; [exact V|]. apply valid_ascii, ascii_firstn, A.
  - destruct D as [D|N]; [exact D|]. destruct (H N) as (a & b & -> & _ & _ & L).
    apply Nat.leb_gt in E. rewrite app_length in E. lia.
Qed.

(** Escapes of calm texts are valid. *)
Lemma encode_point_valid v : (v < 256)%N -> valid (encode_point v).
Proof.
  intros H. rewrite encode_point_ok by lia. apply valid_iff. exists [v].
  split; [constructor; [unfold scalar_value; lia|constructor]|]. cbn. rewrite app_nil_r. reflexivity.
Qed.

Lemma flow_unescape_valid o base w n : tame base -> flow_unescape o base = Ok (w, n) -> valid w.
Proof.
  intros [A C]. unfold flow_unescape.
  destruct (cache o base 1) as [[]|e| |]; cbn [bind]; try discriminate.
  destruct (at_is base 0 92) eqn:H; cbn [negb].
  2: { intros E; injection E as <- <-. reflexivity. }
  destruct (skip base 1) as [buf|e| |] eqn:S; cbn [bind]; try discriminate.
  unfold skip in S. destruct (is_boundary base 1); [|discriminate].
  assert (buf = skipn 1 base) as -> by congruence. clear S.
  destruct (cache o (skipn 1 base) 1) as [[]|e| |]; cbn [bind]; try discriminate.
  destruct (at_is_cons _ _ H) as (r & ->). cbn [skipn].
  destruct r as [|b r]; [discriminate|].
  destruct (C 0) as [_ C2]. destruct (C2 H) as [C4 C8].
  unfold calm_number in C4, C8. cbn [skipn] in C4, C8.
  destruct (escape_of b) as [[w'|k]|] eqn:E; [| |discriminate].
  - destruct (skip (b :: r) 1) as [buf|e| |]; cbn [bind]; try discriminate.
    intros X; injection X as <- _.
    unfold escape_of in E.
    repeat match goal with
    | H : (if ?c then _ else _) = Some _ |- _ => destruct c; [injection H as <-; reflexivity|]
    end.
    destruct (b =? 120)%N; [discriminate|]. destruct (b =? 117)%N; [discriminate|].
    destruct (b =? 85)%N; discriminate.
  - assert (K : k = 2 \/ k = 4 /\ b = 117%N \/ k = 8 /\ b = 85%N).
    { unfold escape_of in E.
      repeat match goal with
      | H : (if ?c then _ else _) = Some _ |- _ =>
          destruct c eqn:?; [first [discriminate|injection H as <-; lia]|]
      end. discriminate. }
    destruct (skip (b :: r) 1) as [buf|e| |] eqn:S; cbn [bind]; try discriminate.
    assert (SB : buf = r).
    { unfold skip in S. destruct (is_boundary _ 1); cbn [skipn] in S; congruence. }
    subst buf. clear S.
    destruct K as [K|[[K Eb]|[K Eb]]]; subst k; subst.
    2: { destruct (cache o r 4) as [[]|e| |]; cbn [bind]; try discriminate.
         destruct (read_hex 4 r 0) as [v|e| |] eqn:RH; cbn [bind]; try discriminate.
         destruct (skip r 4) as [buf|e| |]; cbn [bind]; try discriminate.
         intros X. assert (w = encode_point v) as -> by congruence. apply (C4 eq_refl v eq_refl). }
    2: { destruct (cache o r 8) as [[]|e| |]; cbn [bind]; try discriminate.
         destruct (read_hex 8 r 0) as [v|e| |] eqn:RH; cbn [bind]; try discriminate.
         destruct (skip r 8) as [buf|e| |]; cbn [bind]; try discriminate.
         intros X. assert (w = encode_point v) as -> by congruence. apply (C8 eq_refl v eq_refl). }
    destruct (cache o r 2) as [[]|e| |]; cbn [bind]; try discriminate.
    destruct r as [|h [|l t]]; cbn [read_hex]; try discriminate.
    { destruct (is_hex_byte h); cbn; discriminate. }
    destruct (is_hex_byte h) eqn:Hh; [|discriminate].
    destruct (is_hex_byte l) eqn:Hl; [|discriminate]. cbn [bind].
    destruct (skip (h :: l :: t) 2) as [buf|e| |]; cbn [bind]; try discriminate.
    intros X; injection X as <- _. apply encode_point_valid.
    apply as_hex_lt in Hh. apply as_hex_lt in Hl.
    rewrite !N.shiftl_mul_pow2. change (2 ^ 4)%N with 16%N. lia.
Qed.

(** ** The locals of the scanner *)
Section Flow.
  Variables (o : flags) (base : str) (st0 : stats).
  Hypothesis quote : exists q r, base = q :: r.

  (** The text read so far starts after the quote. *)
  Definition at_ (s : fstate) : Prop :=
    reads base st0 (f_buf s) (f_st s) /\ List.length (f_buf s) < List.length base /\
    is_boundary base 1 = true.
  Definition word_ok (s : fstate) : Prop :=
    at_ s /\ (if f_bor s then f_scr s = [] else tame base -> valid (f_scr s)).
  Definition gap_ok (s : fstate) (ws lines : nat) : Prop :=
    at_ s /\ (if f_bor s then f_scr s = [] /\ lines = 0 /\ ws <= consumed base (f_buf s) - 1
              else tame base -> loose (f_scr s) ws).

  Lemma at_slice {E} s : at_ s ->
    slice (E := E) base 1 (consumed base (f_buf s))
    = Ok (firstn (consumed base (f_buf s) - 1) (skipn 1 base)).
  Proof.
    intros (R & L & B). unfold slice, consumed. rewrite B, (reads_boundary _ _ _ _ R).
    replace (Nat.leb 1 _) with true by (symmetry; apply Nat.leb_le; lia). reflexivity.
  Qed.

  Lemma no_borrow_leaf s ws lines : gap_ok s ws lines ->
    leaf o (fun s' => gap_ok s' ws lines /\ f_bor s' = false /\
                      f_buf s' = f_buf s /\ f_st s' = f_st s) (~ tame base) (f_no_borrow base s).
  Proof.
    intros [A H]. unfold f_no_borrow. destruct (f_bor s) eqn:B.
    - rewrite (at_slice _ A). cbn [bind leaf f_bor f_buf f_st].
      split; [|auto]. split; [exact A|]. cbn [f_bor f_scr f_buf]. intros T.
      destruct H as (-> & _ & L). cbn [app].
      exists [], (firstn (consumed base (f_buf s) - 1) (skipn 1 base)).
      split; [reflexivity|]. split; [reflexivity|].
      split; [apply ascii_firstn, ascii_skipn, (proj1 T)|].
      rewrite firstn_length, skipn_length.
      assert (consumed base (f_buf s) <= List.length base) by (unfold consumed; lia). lia.
    - cbn [leaf]. rewrite B. split; [|auto]. split; [exact A|]. rewrite B. exact H.
  Qed.

  Lemma word_gap s : word_ok s -> gap_ok s 0 0.
  Proof.
    intros [A H]. split; [exact A|]. destruct (f_bor s); [repeat split; [exact H|lia]|].
    intros T. apply valid_loose, H, T.
  Qed.
  Lemma gap_word s ws lines : gap_ok s ws lines -> word_ok s.
  Proof.
    intros [A H]. split; [exact A|]. destruct (f_bor s); [tauto|].
    intros T. exact (loose_valid _ _ (H T)).
  Qed.

  (** Advance over bytes that are no breaks. *)
  Lemma at_adv s n : at_ s -> 0 < n <= List.length (f_buf s) ->
    (forall k, k < n -> is_break (skipn k (f_buf s)) = false) ->
    leaf o (fun s' => at_ s' /\ f_scr s' = f_scr s /\ f_bor s' = f_bor s /\
                      f_buf s' = skipn n (f_buf s)) (~ tame base) (f_adv s n).
  Proof.
    intros (R & L & B) N K. unfold f_adv.
    pose proof (adv_leaf o (f_buf s) (f_st s) n) as H.
    pose proof (adv_leaf' o (f_buf s) (f_st s) n (~ tame base) ltac:(lia) K) as H'.
    destruct (adv (f_buf s) (f_st s) n) as [[b st]|e| |]; cbn [bind leaf] in *; auto.
    - destruct H as (-> & -> & HB). destruct H' as [R' L'].
      { intros X Y. exact (X (proj1 (reads_tame _ _ _ _ R Y))). }
      split; [|auto]. split; [|split; [cbn [f_buf]; lia|exact B]].
      cbn [f_buf f_st]. eapply reads_trans; eauto.
    - apply H'. intros X Y. exact (X (proj1 (reads_tame _ _ _ _ R Y))).
  Qed.

  Lemma at_adv_line s : at_ s -> is_break (f_buf s) = true ->
    leaf o (fun s' => at_ s' /\ f_scr s' = f_scr s /\ f_bor s' = f_bor s /\
                      List.length (f_buf s') < List.length (f_buf s)) (~ tame base) (f_adv_line s).
  Proof.
    intros (R & L & B) K. unfold f_adv_line.
    pose proof (adv_line_leaf' o (f_buf s) (f_st s) (~ tame base) K) as H.
    destruct (adv_line (f_buf s) (f_st s)) as [[b st]|e| |]; cbn [bind leaf] in *.
    - destruct H as [R' L'].
      { intros X Y. exact (X (proj1 (reads_tame _ _ _ _ R Y))). }
      cbn [f_buf f_st f_scr f_bor]. split; [|auto].
      split; [|split; [cbn [f_buf]; lia|exact B]].
      cbn [f_buf f_st]. eapply reads_trans; eauto.
    - apply H. intros X Y. exact (X (proj1 (reads_tame _ _ _ _ R Y))).
    - apply H. intros X Y. exact (X (proj1 (reads_tame _ _ _ _ R Y))).
    - apply H. intros X Y. exact (X (proj1 (reads_tame _ _ _ _ R Y))).
  Qed.

  Lemma no_break_at1 s : s <> [] -> is_wsZ s = false -> forall k, k < 1 -> is_break (skipn k s) = false.
  Proof.
    intros N W k K. assert (k = 0) as -> by lia. cbn [skipn].
    unfold is_wsZ in W. destruct (is_break s); [|reflexivity].
    rewrite orb_true_r in W. discriminate.
  Qed.

  Lemma at_push s t : at_ s -> at_ (f_push s t).
  Proof. exact (fun x => x). Qed.

  (** ** Words *)
  Lemma flow_word_leaf (single : bool) s esc : word_ok s ->
    leaf o (fun x : fstate * esc_state * bool => let '(s', esc', closed) := x in word_ok s' /\ List.length (f_buf s') <= List.length (f_buf s) /\
              if closed then (if single then at_is (f_buf s') 0 39 else at_is (f_buf s') 0 34) = true
              else is_wsZ (f_buf s') = true)
      (~ tame base) (flow_word o base single s esc).
  Proof.
    intros W0. unfold flow_word.
    apply (leaf_loop o _
      (fun x : fstate * esc_state => let '(s', _) := x in
         word_ok s' /\ List.length (f_buf s') <= List.length (f_buf s))
      (fun x : fstate * esc_state => let '(s', _) := x in List.length (f_buf s'))); [|auto|unfold fuel_of; lia].
    clear W0 esc. intros [s1 esc] [W LE]. unfold flow_word_body.
    destruct (is_wsZ (f_buf s1)) eqn:WS; [cbn [leaf]; auto|].
    eapply leaf_bind; [prim|]. intros _ _.
    assert (NE : f_buf s1 <> []).
    { intros E. rewrite E in WS. discriminate. }
    assert (NB := no_break_at1 _ NE WS).
    assert (L1 : 0 < List.length (f_buf s1)) by (destruct (f_buf s1); [congruence|cbn; lia]).
    destruct (single && at_is (f_buf s1) 0 39 && at_is (f_buf s1) 1 39) eqn:Q2.
    { apply andb_true_iff in Q2 as [Q2a Q2]. apply andb_true_iff in Q2a as [-> Q2a].
      eapply leaf_bind; [apply (no_borrow_leaf s1 0 0), word_gap, W|].
      intros s2 (G & BF & EB & _).
      destruct G as [A2 G]. rewrite BF in G.
      eapply leaf_bind.
      { apply (at_adv (f_push s2 [39%N]) 2); [exact A2| |].
        - cbn [f_push f_buf]. rewrite EB. apply at_is_nonempty in Q2. lia.
        - cbn [f_push f_buf]. rewrite EB. apply no_breaks; [apply at_is_nonempty in Q2; lia|].
          apply at_is_nth in Q2. apply at_is_nth in Q2a.
          destruct (f_buf s1) as [|x [|y t]]; try discriminate. cbn in Q2, Q2a.
          injection Q2 as ->. injection Q2a as ->.
          repeat constructor; cbn; discriminate. }
      intros s3 (A3 & S3 & B3 & E3). cbn [leaf].
      split; [split; [split; [exact A3|]|]|].
      - rewrite B3, S3. cbn [f_push f_bor f_scr]. rewrite BF. intros T.
        apply valid_app; [exact (loose_valid _ _ (G T))|reflexivity].
      - rewrite E3. cbn [f_push f_buf]. rewrite EB, skipn_length. lia.
      - rewrite E3. cbn [f_push f_buf]. rewrite EB, skipn_length. lia. }
    destruct (single && at_is (f_buf s1) 0 39 || negb single && at_is (f_buf s1) 0 34) eqn:CL.
    { cbn [leaf]. split; [exact W|]. split; [exact LE|].
      destruct single; cbn in CL; rewrite ?orb_false_r in CL; exact CL. }
    destruct (negb single && at_is (f_buf s1) 0 92 && is_break (skipn 1 (f_buf s1))) eqn:EB.
    { eapply leaf_bind; [apply (no_borrow_leaf s1 0 0), word_gap, W|].
      intros s2 (G & BF & EF & _). destruct G as [A2 G].
      eapply leaf_bind.
      { apply (at_adv s2 1 A2); rewrite EF; [lia|exact NB]. }
      intros s3 (A3 & S3 & B3 & E3). cbn [leaf].
      split; [split; [split; [exact A3|]|]|].
      - rewrite B3, S3. rewrite BF in G |- *. intros T. exact (loose_valid _ _ (G T)).
      - rewrite E3, EF, skipn_length. lia.
      - rewrite E3, EF, skipn_length. lia. }
    destruct (negb single && at_is (f_buf s1) 0 92) eqn:ES.
    { apply andb_true_iff in ES as [_ ES].
      eapply leaf_bind; [apply (no_borrow_leaf s1 0 0), word_gap, W|].
      intros s2 (G & BF & EF & _). destruct G as [A2 G].
      assert (TB : tame base -> tame (f_buf s2)).
      { intros T. destruct A2 as (R & _). exact (reads_tame _ _ _ _ R T). }
      pose proof (flow_unescape_leaf o (f_buf s2)) as UL. rewrite EF in UL. specialize (UL ES).
      pose proof (flow_unescape_valid o (f_buf s2)) as UV. rewrite EF in UV.
      rewrite EF in TB. rewrite EF.
      destruct (flow_unescape o (f_buf s1)) as [[w n]|e| |]; cbn [bind leaf] in *.
      2: exact UL. 2: { intros T. exact (UL (proj1 (TB T))). } 2: exact UL.
      destruct UL as [UL UF].
      eapply leaf_bind.
      { apply (at_adv (f_push s2 w) n); [exact A2| |]; cbn [f_push f_buf]; rewrite EF.
        - exact UL.
        - apply no_breaks; [lia|exact UF]. }
      intros s3 (A3 & S3 & B3 & E3). cbn [leaf].
      split; [split; [split; [exact A3|]|]|].
      - rewrite B3, S3. cbn [f_push f_bor f_scr]. rewrite BF in G |- *. intros T.
        apply valid_app; [exact (loose_valid _ _ (G T))|exact (UV w n (TB T) eq_refl)].
      - rewrite E3. cbn [f_push f_buf]. rewrite EF, skipn_length. lia.
      - rewrite E3. cbn [f_push f_buf]. rewrite EF, skipn_length. lia. }
    { destruct W as [A2 G].
      assert (TB : tame base -> tame (f_buf s1)).
      { intros T. destruct A2 as (R & _). exact (reads_tame _ _ _ _ R T). }
      assert (PB : f_buf (f_push_head s1) = f_buf s1) by (unfold f_push_head; destruct (f_bor s1); reflexivity).
      eapply leaf_bind.
      { apply (at_adv (f_push_head s1) 1).
        - unfold f_push_head. destruct (f_bor s1); exact A2.
        - rewrite PB. lia.
        - rewrite PB. exact NB. }
      intros s3 (A3 & S3 & B3 & E3). cbn [leaf].
      split; [split; [split; [exact A3|]|]|].
      - rewrite B3, S3. unfold f_push_head. destruct (f_bor s1) eqn:Bo; rewrite ?Bo; [exact G|].
        cbn [f_push f_bor f_scr]. rewrite Bo. intros T. apply valid_app; [exact (G T)|].
        apply valid_ascii, ascii_firstn, (proj1 (TB T)).
      - rewrite E3, PB, skipn_length. lia.
      - rewrite E3, PB, skipn_length. lia. }
  Qed.

  (** ** White space *)
  Lemma flow_ws_leaf s esc : word_ok s ->
    leaf o (fun x : fstate * esc_state * nat * nat => let '(s', esc', ws, lines) := x in gap_ok s' ws lines /\ is_ws (f_buf s') = false /\
              List.length (f_buf s') <= List.length (f_buf s))
      (~ tame base) (flow_ws o base s esc).
  Proof.
    intros W0. unfold flow_ws.
    apply (leaf_loop o _
      (fun x : fstate * esc_state * nat * nat => let '(s', _, ws, lines) := x in
         gap_ok s' ws lines /\ List.length (f_buf s') <= List.length (f_buf s))
      (fun x : fstate * esc_state * nat * nat => let '(s', _, _, _) := x in List.length (f_buf s')));
      [|split; [apply word_gap, W0|lia]|unfold fuel_of; lia].
    clear W0 esc. intros [[[s1 esc] ws] lines] [G LE]. unfold flow_ws_body.
    eapply leaf_bind; [prim|]. intros _ _.
    destruct G as [A2 G].
    assert (TB : tame base -> tame (f_buf s1)).
    { intros T. destruct A2 as (R & _). exact (reads_tame _ _ _ _ R T). }
    destruct (is_blank (f_buf s1)) eqn:BL.
    - assert (PB : f_buf (f_push_head s1) = f_buf s1) by (unfold f_push_head; destruct (f_bor s1); reflexivity).
      pose proof (is_blank_nonempty _ BL) as NE.
      assert (L1 : 0 < List.length (f_buf s1)) by (destruct (f_buf s1); [congruence|cbn; lia]).
      eapply leaf_bind.
      { apply (at_adv (f_push_head s1) 1).
        - unfold f_push_head. destruct (f_bor s1); exact A2.
        - rewrite PB. lia.
        - rewrite PB. intros k K. assert (k = 0) as -> by lia. apply is_blank_not_break, BL. }
      intros s3 (A3 & S3 & B3 & E3). cbn [leaf].
      split; [split; [split; [exact A3|]|]|].
      + rewrite B3, S3. unfold f_push_head in *. destruct (f_bor s1) eqn:Bo; rewrite ?Bo.
        * destruct G as (G1 & G2 & G3). repeat split; auto. rewrite E3.
          destruct A2 as (R & L & _). unfold consumed in *. rewrite skipn_length. lia.
        * cbn [f_push f_bor f_scr]. rewrite Bo. intros T.
          eapply loose_le; [|apply loose_push; [|exact (G T)]].
          -- rewrite firstn_length. lia.
          -- apply ascii_firstn, (proj1 (TB T)).
      + rewrite E3, PB, skipn_length. lia.
      + rewrite E3, PB, skipn_length. lia.
    - destruct (is_break (f_buf s1)) eqn:BR.
      + eapply leaf_bind; [apply (no_borrow_leaf s1 ws lines); split; [exact A2|exact G]|].
        intros s2 (G2 & BF & EF & _). destruct G2 as [A3 G2]. rewrite BF in G2.
        assert (ES : exists esc' ws', (match esc with EStart => (EStarted, 0) | e => (e, ws) end)
                      = (esc', ws') /\ ws' <= ws).
        { destruct esc; eexists _, _; split; try reflexivity; lia. }
        destruct ES as (esc' & ws' & -> & LW).
        eapply leaf_bind; [apply (at_adv_line s2 A3); rewrite EF; exact BR|].
        intros s3 (A4 & S3 & B3 & E3). cbn [leaf]. rewrite EF in E3.
        split; [split; [split; [exact A4|]|]|]; try lia.
        rewrite B3, S3, BF. intros T. eapply loose_le; [exact LW|exact (G2 T)].
      + cbn [leaf]. split; [split; [exact A2|exact G]|]. split; [|exact LE].
        unfold is_ws. rewrite BL, BR. reflexivity.
  Qed.

  (** ** Joining *)
  Hypothesis decide : tame base \/ ~ tame base.

  Lemma flow_join_leaf s esc ws lines : gap_ok s ws lines ->
    leaf o (fun s' => word_ok s' /\ f_buf s' = f_buf s) (~ tame base) (flow_join base s esc ws lines).
  Proof.
    intros G. unfold flow_join. destruct lines as [|n].
    - cbn [leaf]. split; [exact (gap_word _ _ _ G)|reflexivity].
    - eapply leaf_bind; [apply (no_borrow_leaf s ws (S n) G)|].
      intros s2 (G2 & BF & EF & _). destruct G2 as [A2 G2]. rewrite BF in G2.
      eapply leaf_bind.
      { apply (chop_leaf o (f_scr s2) ws (~ tame base)).
        - intros N. apply G2. destruct decide; [assumption|contradiction].
        - destruct decide; [right|left]; auto. }
      intros scr V.
      assert (V' : tame base -> valid scr) by (intros T; apply V; auto).
      assert (P : forall t, ascii t ->
        word_ok (f_push (mkF (f_buf s2) (f_st s2) scr (f_bor s2)) t)).
      { intros t T. split; [exact A2|]. cbn [f_push f_bor f_scr]. rewrite BF. intros TB.
        apply valid_app; [exact (V' TB)|apply valid_ascii, T]. }
      destruct n as [|n]; cbn [leaf].
      + destruct esc; (split; [|exact EF]).
        * apply P. repeat constructor.
        * split; [exact A2|]. cbn. rewrite BF. exact V'.
        * split; [exact A2|]. cbn. rewrite BF. exact V'.
      + split; [|exact EF]. apply P. apply ascii_repeat. reflexivity.
  Qed.
End Flow.

Lemma boundary_skip {E} s n (x : str) : skip (E := E) s n = Ok x -> is_boundary s n = true.
Proof. unfold skip. destruct (is_boundary s n); [reflexivity|discriminate]. Qed.

(** [tame] is decidable. *)
Lemma and_iff_both (A B C D : Prop) : (A <-> C) -> (B <-> D) -> (A /\ B <-> C /\ D).
Proof. tauto. Qed.
Definition calm_numberb (s : str) (k : nat) (c : N) (n : nat) : bool :=
  negb (at_is s (S k) c) ||
  match read_hex n (skipn (S (S k)) s) 0 with Ok v => valid_utf8 (encode_point v) | _ => true end.
Definition calm_atb (s : str) (k : nat) : bool :=
  (negb (at_is s k 37) ||
   match nth_error s (S k) with Some h => negb (is_hex_byte h) || N.ltb (as_hex h) 8 | None => true end)
  && (negb (at_is s k 92) || calm_numberb s k 117 4 && calm_numberb s k 85 8).
Lemma calm_numberb_iff s k c n : calm_numberb s k c n = true <-> calm_number s k c n.
Proof.
  unfold calm_numberb, calm_number. destruct (at_is s (S k) c); cbn [negb orb]; [|split; [discriminate|reflexivity]].
  destruct (read_hex _ _ _) as [v|e| |]; split; intros H; try reflexivity; try discriminate.
  - intros _ w E. assert (w = v) as -> by congruence. exact H.
  - exact (H eq_refl v eq_refl).
Qed.
Lemma calm_atb_iff s k : calm_atb s k = true <-> calm_at s k.
Proof.
  unfold calm_atb, calm_at. rewrite andb_true_iff. apply and_iff_both.
  - destruct (at_is s k 37); cbn [negb orb]; [|split; [discriminate|reflexivity]].
    destruct (nth_error s (S k)) as [h|]; [|split; [discriminate|reflexivity]].
    destruct (is_hex_byte h) eqn:Z; cbn [negb orb].
    + rewrite N.ltb_lt. split.
      * intros L _ x [= <-] _. exact L.
      * intros H. exact (H eq_refl h eq_refl Z).
    + split; [|reflexivity]. intros _ _ x [= <-] X. congruence.
  - destruct (at_is s k 92); cbn [negb orb]; [|split; [discriminate|reflexivity]].
    rewrite andb_true_iff, !calm_numberb_iff. tauto.
Qed.
Lemma calm_beyond s k : List.length s <= k -> calm_at s k.
Proof.
  intros L. assert (N : forall c, at_is s k c = false).
  { intros c. unfold at_is. rewrite (proj2 (nth_error_None s k) L). reflexivity. }
  unfold calm_at. rewrite !N. split; discriminate.
Qed.
Definition tameb (s : str) : bool :=
  forallb (fun b => N.ltb b 128) s && forallb (calm_atb s) (seq 0 (List.length s)).
Lemma tameb_iff s : tameb s = true <-> tame s.
Proof.
  unfold tameb, tame, ascii. rewrite andb_true_iff, !forallb_forall, Forall_forall. split.
  - intros [A B]. split.
    + intros b I. apply N.ltb_lt, A, I.
    + intros k. destruct (Nat.lt_ge_cases k (List.length s)) as [L|L]; [|apply calm_beyond, L].
      apply calm_atb_iff, B, in_seq. lia.
  - intros [A B]. split.
    + intros b I. apply N.ltb_lt, A, I.
    + intros k _. apply calm_atb_iff, B.
Qed.
Lemma tame_dec s : tame s \/ ~ tame s.
Proof. rewrite <- tameb_iff. destruct (tameb s); [left; reflexivity|right; discriminate]. Qed.

Lemma scan_flow_eager_leaf o q r st (single : bool) : plain_byte q ->
  leaf o (fun '(tok, amt, st') => 0 < amt <= List.length (q :: r) /\
            reads (q :: r) st (skipn amt (q :: r)) st' /\
            exists t, tok = TScalar t (if single then SingleQuote else DoubleQuote))
    (~ tame (q :: r)) (scan_flow_scalar_eager o (q :: r) st single).
Proof.
  intros Q. unfold scan_flow_scalar_eager. set (base := q :: r).
  eapply leaf_bind; [prim|]. intros _ _.
  apply (leaf_bind o (fun s => word_ok base st s)).
  { unfold f_adv. cbn [f_buf f_st].
    pose proof (adv_plain o base st 1 (~ tame base)) as H.
    pose proof (adv_leaf o base st 1) as H2.
    destruct (adv base st 1) as [[b s1]|e| |]; cbn [bind leaf] in *.
    - destruct H as [R E].
      + unfold base; cbn; lia.
      + constructor; [exact Q|constructor].
      + apply tame_ascii.
      + destruct H2 as (_ & _ & B). split; [|reflexivity]. split; [exact R|].
        subst b. split; [unfold base; cbn; lia|exact B].
    - apply H; [unfold base; cbn; lia|constructor; [exact Q|constructor]|apply tame_ascii].
    - apply H; [unfold base; cbn; lia|constructor; [exact Q|constructor]|apply tame_ascii].
    - apply H; [unfold base; cbn; lia|constructor; [exact Q|constructor]|apply tame_ascii]. }
  intros s0 W0.
  apply (leaf_bind o (fun s => word_ok base st s /\
     (if single then at_is (f_buf s) 0 39 else at_is (f_buf s) 0 34) = true)).
  { apply (leaf_loop o _ (word_ok base st) (fun s => List.length (f_buf s)) _ _ _ _).
    2: exact W0.
    2: { destruct W0 as [(_ & L & _) _]. unfold fuel_of. lia. }
    intros s W. unfold flow_body.
    eapply leaf_bind; [prim|]. intros _ _.
    destruct (is_doc_indicator _ _); [apply leaf_err; discriminate|].
    destruct (is_empty (f_buf s)) eqn:NE; [apply leaf_err; discriminate|].
    eapply leaf_bind; [prim|]. intros _ _.
    eapply leaf_bind; [apply (flow_word_leaf o base st single s ENone W)|].
    intros [[s1 esc] closed] (W1 & L1 & C). destruct closed.
    { cbn [leaf]. auto. }
    eapply leaf_bind; [apply (flow_ws_leaf o base st s1 esc W1)|].
    intros [[[s2 esc2] ws] lines] (G & NW & L2).
    eapply leaf_bind; [apply (flow_join_leaf o base st (tame_dec base) s2 esc2 ws lines G)|].
    intros s3 [W3 E3]. cbn [leaf]. split; [exact W3|]. rewrite E3.
    destruct (f_buf s2) as [|x2 t2] eqn:E2.
    { destruct (f_buf s); [discriminate|cbn; lia]. }
    destruct (Nat.eq_dec (List.length (f_buf s2)) (List.length (f_buf s1))) as [EQ|NQ].
    - exfalso. destruct G as [(R2 & _) _]. destruct W1 as [(R1 & _) _].
      destruct (reads_len _ _ _ _ R1) as (_ & _ & D1). destruct (reads_len _ _ _ _ R2) as (_ & _ & D2).
      rewrite EQ in D2. rewrite <- D1 in D2.
      rewrite <- D2, E2 in C. unfold is_wsZ, is_ws in *.
      rewrite orb_false_r in C. congruence.
    - rewrite E2 in NQ. cbn [List.length] in *. lia. }
  intros s [W C].
  assert (NE : exists c t, f_buf s = c :: t /\ plain_byte c).
  { destruct single; apply at_is_cons in C as (t & E); eexists _, _; (split; [exact E|]);
      repeat split; cbn; discriminate. }
  destruct NE as (c & t & E & PC).
  apply (leaf_bind o (fun _ => True)).
  { destruct W as [A G]. destruct (f_bor s).
    - rewrite (at_slice base st s A). exact Logic.I.
    - unfold utf8_unwrap. destruct (valid_utf8 (f_scr s)) eqn:V; cbn; [exact Logic.I|].
      intros T. specialize (G T). unfold valid in G. congruence. }
  intros text _. eapply leaf_bind; [prim|]. intros _ _.
  destruct W as [A G].
  eapply leaf_bind.
  { apply (at_adv o base st s 1 A); rewrite E; [cbn; lia|].
    intros k K. assert (k = 0) as -> by lia. apply plain_byte_no_break, PC. }
  intros s2 (A2 & _ & _ & E2). cbn [leaf].
  destruct A2 as (R & L & _). destruct (reads_consumed _ _ _ _ R) as [-> _].
  split; [unfold consumed; lia|]. split; [exact R|]. eauto.
Qed.
