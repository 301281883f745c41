(** Contracts of tags and directives. *)
From Verif Require Export LexFacts.
From Verif Require Utf8Facts SpecUtf8.

Lemma ascii_app a b : ascii a -> ascii b -> ascii (a ++ b).
Proof. intros. apply Forall_app; auto. Qed.
Lemma ascii_firstn s n : ascii s -> ascii (firstn n s).
Proof.
  intros H. unfold ascii in *. rewrite Forall_forall in *. intros b I. apply H.
  rewrite <- (firstn_skipn n s). apply in_or_app. left; exact I.
Qed.
Lemma ascii_utf8 a : ascii a -> valid_utf8 a = true.
Proof.
  rewrite Utf8Facts.valid_iff. intros A. exists a. split.
  - eapply Forall_imp; [|exact A]. intros v V. cbv beta in V. unfold SpecUtf8.scalar_value. lia.
  - induction A as [|v a V A IH]; [reflexivity|]. cbn [flat_map]. rewrite Utf8Facts.enc1 by lia.
    cbn. f_equal. exact IH.
Qed.

Lemma plain_uri b v : uri_byte b || v && uri_verbatim_byte b = true -> plain_byte b.
Proof.
  unfold uri_byte, uri_verbatim_byte, rng, is_upper, is_lower, plain_byte. destruct v; lia.
Qed.

Lemma land_high x : (x < 128)%N -> N.land x 128 = 0%N.
Proof.
  intros H. change 128%N with (2 ^ 7)%N. apply N.bits_inj. intros i. rewrite N.land_spec, N.pow2_bits_eqb, N.bits_0.
  destruct (N.eqb_spec 7 i) as [<-|]; [|apply andb_false_r]. rewrite andb_true_r.
  destruct x as [|p]; [reflexivity|]. apply N.bits_above_log2. apply N.log2_lt_pow2; [reflexivity|exact H].
Qed.
Lemma as_hex_lt b : is_hex_byte b = true -> (as_hex b < 16)%N.
Proof.
  unfold is_hex_byte, as_hex, is_digit, rng. intros H.
  destruct ((65 <=? b)%N && (b <=? 70)%N) eqn:A; [lia|].
  destruct ((97 <=? b)%N && (b <=? 102)%N) eqn:B; lia.
Qed.

Lemma unescape_tame o b r out n : tag_uri_unescape o (b :: r) = Ok (out, n) -> tame (b :: r) -> ascii out.
Proof.
  intros E [_ C]. revert E. unfold tag_uri_unescape, fuel_of. cbn [loop].
  unfold uri_unescape_body at 1.
  destruct (cache o (b :: r) 3) as [[]|e| |]; cbn [bind]; try discriminate.
  destruct r as [|h [|l t]]; try discriminate.
  destruct ((b =? 37)%N && is_hex_byte h && is_hex_byte l) eqn:G; [|discriminate].
  apply andb_true_iff in G as [G G3]. apply andb_true_iff in G as [G1 G2].
  destruct (C 0) as [C0 _]. specialize (C0 G1 h eq_refl G2). apply as_hex_lt in G3.
  assert (L : (N.shiftl (as_hex h) 4 + as_hex l < 128)%N).
  { rewrite N.shiftl_mul_pow2. change (2 ^ 4)%N with 16%N. lia. }
  unfold octet_len. rewrite (land_high _ L). cbn [N.eqb bind].
  destruct (skip (b :: h :: l :: t) 3) as [buf|e| |]; cbn [bind]; try discriminate.
  cbn [bind app]. intros X. assert (out = [N.shiftl (as_hex h) 4 + as_hex l]%N) as -> by congruence.
  constructor; [exact L|constructor].
Qed.

Lemma scan_tag_uri_leaf o base st verbatim :
  leaf o (fun '(_, amt, st', borrow) =>
            reads base st (skipn amt base) st' /\ amt <= List.length base /\
            Forall plain_byte (firstn amt base))
    (~ tame base) (scan_tag_uri o base st true verbatim).
Proof.
  unfold scan_tag_uri.
  eapply leaf_bind.
  - apply (leaf_loop o _
      (fun '(buf, st', scratch, borrow) => exists n, buf = skipn n base /\ n <= List.length base /\
         Forall plain_byte (firstn n base) /\
         reads base st buf st' /\ (tame base -> ascii scratch))
      (fun '(buf, _, _, _) => List.length buf)
      (fun '(buf, st', scratch, borrow) => exists n, buf = skipn n base /\ n <= List.length base /\
         Forall plain_byte (firstn n base) /\
         reads base st buf st' /\ (tame base -> ascii scratch)) (~ tame base)).
    2: { exists 0. repeat split; try constructor. lia. } 2: unfold fuel_of; lia.
    intros [[[buf st'] scratch] borrow] (n & -> & L & F & R & Bo). unfold tag_uri_body.
    eapply leaf_bind; [prim|]. intros _ _.
    assert (T : ~ ascii (skipn n base) -> ~ tame base)
      by (intros X Y; exact (X (ascii_skipn _ _ (proj1 Y)))).
    destruct (skipn n base) as [|b t] eqn:S; [apply leaf_err; discriminate|].
    assert (LN : n < List.length base).
    { assert (X : List.length (skipn n base) = List.length (b :: t)) by (rewrite S; reflexivity).
      rewrite skipn_length in X. cbn in X. lia. }
    (* advancing by k plain bytes *)
    assert (ADV : forall k scr br, 0 < k <= List.length (b :: t) ->
      Forall plain_byte (firstn k (b :: t)) -> (tame base -> ascii scr) ->
      leaf o (fun x : step (str * stats * str * bool) (str * stats * str * bool) => match x with
         | Next s' => (let '(buf, st', scratch, borrow) := s' in
             exists n, buf = skipn n base /\ n <= List.length base /\
             Forall plain_byte (firstn n base) /\
             reads base st buf st' /\ (tame base -> ascii scratch)) /\
             (let '(buf, _, _, _) := s' in List.length buf) < List.length (b :: t)
         | Done r => (let '(buf, st', scratch, borrow) := r in
             exists n, buf = skipn n base /\ n <= List.length base /\
             Forall plain_byte (firstn n base) /\
             reads base st buf st' /\ (tame base -> ascii scratch))
         end) (~ tame base)
        (let* '(buf', st') := adv (b :: t) st' k in Ok (Next (buf', st', scr, br)))).
    { intros k scr br K FK BR.
      eapply leaf_bind; [apply (adv_plain o (b :: t) st' k (~ tame base)); [lia|exact FK|exact T]|].
      intros [b2 st2] [R2 ->]. cbn [leaf].
      assert (SK : skipn k (b :: t) = skipn (n + k) base) by (rewrite <- skipn_skipn, S; reflexivity).
      split; [|rewrite skipn_length; lia].
      exists (n + k). rewrite <- S in K. rewrite skipn_length in K.
      split; [exact SK|]. split; [lia|]. split; [|split; [eapply reads_trans; eauto|exact BR]].
      rewrite <- (firstn_skipn n base) at 1. rewrite S.
      rewrite firstn_app, firstn_firstn, firstn_length, (Nat.min_r (n + k) n) by lia.
      apply Forall_app. split; [exact F|].
      replace (n + k - Nat.min n (List.length base)) with k by lia. exact FK. }
    destruct (uri_byte b || verbatim && uri_verbatim_byte b) eqn:U.
    { apply ADV; [cbn; lia| |].
      - cbn. constructor; [exact (plain_uri _ _ U)|constructor].
      - intros TB. destruct borrow; [auto|]. apply ascii_app; [auto|].
        pose proof (ascii_skipn base n (proj1 TB)) as X. rewrite S in X. inversion X; subst. constructor; [assumption|constructor]. }
    destruct (b =? 37)%N eqn:PC.
    + pose proof (tag_uri_unescape_leaf o (b :: t)) as UL.
      pose proof (unescape_tame o b t) as UT.
      destruct (tag_uri_unescape o (b :: t)) as [[out amt]|e| |] eqn:UE; cbn [bind leaf] in *;
        [|exact UL|exact (T UL)|exact UL].
      destruct UL as [UL1 UL2].
      apply ADV; [exact UL1|exact UL2|]. intros TB. apply ascii_app.
      * destruct borrow; [|auto]. apply ascii_app; [auto|apply ascii_firstn, TB].
      * apply (UT out amt eq_refl). rewrite <- S. apply tame_skipn, TB.
    + cbn [leaf]. exists n. repeat split; auto. 
  - intros [[[buf st'] scratch] borrow] (n & -> & L & F & R & Bo).
    replace (consumed base (skipn n base)) with n by (unfold consumed; rewrite skipn_length; lia).
    assert (SL : slice (E := scan_error) base 0 n = Ok (firstn n base)).
    { pose proof (slice_reads (E := scan_error) _ _ _ _ R) as X.
      replace (consumed base (skipn n base)) with n in X
        by (unfold consumed; rewrite skipn_length; lia). exact X. }
    destruct borrow.
    + rewrite SL. cbn. auto.
    + unfold utf8_unwrap. destruct (valid_utf8 scratch) eqn:VS; cbn; auto.
      intros TB. rewrite (ascii_utf8 _ (Bo TB)) in VS. discriminate.
Qed.

Lemma slice0_leaf o (s : str) n : n <= List.length s ->
  leaf o (fun t => t = firstn n s /\ is_boundary s n = true) (~ ascii s) (slice s 0 n).
Proof.
  intros L. unfold slice. destruct (is_boundary s n) eqn:B; cbn.
  - rewrite Nat.sub_0_r. auto.
  - intros A. rewrite (ascii_boundary _ _ A L) in B. discriminate.
Qed.

Lemma bang_plain : plain_byte 33.
Proof. repeat split; cbn; discriminate. Qed.

Lemma firstn_snoc_nth {A} (l : list A) n x : nth_error l n = Some x ->
  firstn (S n) l = firstn n l ++ [x].
Proof.
  revert l; induction n as [|n IH]; intros [|a l] H; cbn in H; try discriminate.
  - injection H as ->. reflexivity.
  - change (firstn (S (S n)) (a :: l)) with (a :: firstn (S n) l). rewrite (IH _ H). reflexivity.
Qed.

Lemma at_is_nth s n c : at_is s n c = true <-> nth_error s n = Some c.
Proof.
  unfold at_is. destruct (nth_error s n); [|split; discriminate].
  rewrite N.eqb_eq. split; congruence.
Qed.

Lemma skip_leaf' o s n : n <= List.length s ->
  leaf o (fun r => r = skipn n s /\ is_boundary s n = true) (~ ascii s) (skip s n).
Proof.
  intros L. eapply leaf_impl; [apply skip_leaf|intros a X; exact X|].
  intros X A. rewrite (ascii_boundary _ n A L) in X. discriminate.
Qed.

Lemma scan_tag_handle_leaf o base st :
  leaf o (fun '(h, st') =>
      match h with
      | Some (h, amt) => 0 < amt <= List.length base /\ reads base st (skipn amt base) st' /\
          handle_str h = firstn amt base /\
          (match h with HPrimary _ => amt = 1 /\ is_ws_at base 1 = true | _ => True end)
      | None => st' = st /\ exists b r, base = 33%N :: b :: r
      end) (~ ascii base) (scan_tag_handle o base st).
Proof.
  unfold scan_tag_handle. eapply leaf_bind; [prim|]. intros _ _.
  destruct base as [|b r]; [apply leaf_err; discriminate|].
  destruct (b =? 33)%N eqn:B; [|apply leaf_err; discriminate]. apply N.eqb_eq in B. subst.
  eapply leaf_bind; [apply skip_leaf'; cbn; lia|].
  intros rest [-> _]. cbn [skipn].
  eapply leaf_bind; [apply take_while_leaf|]. intros n [L F].
  eapply leaf_bind; [prim|]. intros _ _.
  destruct (at_is (33%N :: r) (1 + n) 33) eqn:A.
  - pose proof (at_is_nonempty _ _ _ A) as LA. cbn [List.length Nat.add] in LA.
    eapply leaf_bind; [apply slice0_leaf; cbn [List.length]; lia|]. intros h [-> BD]. cbn [leaf].
    assert (FP : Forall plain_byte (firstn (1 + n + 1) (33%N :: r))).
    { rewrite Nat.add_1_r. apply at_is_nth in A. rewrite (firstn_snoc_nth _ _ _ A).
      apply Forall_app. split; [|constructor; [exact bang_plain|constructor]].
      constructor; [exact bang_plain|]. eapply Forall_imp; [exact alnum_plain|exact F]. }
    split; [cbn [List.length]; lia|]. split; [|split; destruct n; exact Logic.I || reflexivity].
    apply reads_adv; [cbn [List.length]; lia| |exact BD].
    apply no_breaks; [cbn [List.length]; lia|exact FP].
  - destruct (Nat.eqb n 0 && is_ws_at (33%N :: r) (1 + n)) eqn:W.
    + apply andb_true_iff in W as [W1 W2]. apply Nat.eqb_eq in W1. subst.
      eapply leaf_bind; [apply (slice0_leaf o (33%N :: r) 1); cbn; lia|]. intros h [-> BD].
      cbn [leaf]. split; [cbn; lia|]. split; [|split; [reflexivity|split; [reflexivity|exact W2]]].
      apply reads_adv; [cbn; lia| |exact BD].
      apply no_breaks; [cbn; lia|]. constructor; [exact bang_plain|constructor].
    + destruct (Nat.ltb (1 + n) (List.length (33%N :: r))) eqn:LT; [|apply leaf_err; discriminate].
      cbn [leaf]. split; [reflexivity|]. apply Nat.ltb_lt in LT.
      destruct r as [|b r]; [cbn in LT; lia|]. eauto.
Qed.

Lemma scan_tag_directive_leaf o base st :
  leaf o (fun '(tok, amt, st') => reads base st (skipn amt base) st' /\ amt <= List.length base)
    (~ tame base) (scan_tag_directive o base st).
Proof.
  unfold scan_tag_directive.
  eapply leaf_bind.
  { eapply leaf_impl; [apply scan_tag_handle_leaf|intros a X; exact X|apply tame_ascii]. }
  intros [[[h amt]|] st1]; [|intros _; apply leaf_err; discriminate].
  intros (L & R & _). cbn zeta.
  eapply leaf_bind.
  { eapply leaf_impl; [apply skip_leaf'; lia|intros a X; exact X|apply tame_ascii]. }
  intros buf [-> _].
  eapply leaf_bind; [prim|]. intros _ _.
  destruct (is_empty _); [apply leaf_err; discriminate|].
  destruct (negb _); [apply leaf_err; discriminate|].
  eapply leaf_bind.
  { eapply leaf_impl; [apply eat_ws_leaf|intros a X; exact X|].
    intros X Y. exact (X (ascii_skipn _ _ (proj1 Y))). }
  intros [buf st2] R2.
  assert (R02 : reads base st buf st2) by (eapply reads_trans; eauto).
  eapply leaf_bind.
  { eapply leaf_impl; [apply scan_tag_uri_leaf|intros a X; exact X|].
    intros X Y. exact (X (reads_tame _ _ _ _ R02 Y)). }
  intros [[[prefix amt2] st3] borrow] (R3 & L3 & _).
  destruct (is_ws_at buf amt2).
  - eapply leaf_bind.
    { eapply leaf_impl; [apply skip_leaf'; exact L3|intros a X; exact X|].
      intros X Y. exact (X (proj1 (reads_tame _ _ _ _ R02 Y))). }
    intros b4 [-> _]. cbn [leaf].
    assert (R04 : reads base st (skipn amt2 buf) st3) by (eapply reads_trans; eauto).
    destruct (reads_consumed _ _ _ _ R04) as [-> _]. split; [exact R04|unfold consumed; lia].
  - destruct (is_empty _); apply leaf_err; discriminate.
Qed.

Lemma scan_node_tag_leaf o base st :
  leaf o (fun '(tok, amt, st') =>
            0 < amt <= List.length base /\ is_boundary base amt = true /\
            sread st <= sread st' <= sread st + amt /\
            (starts_with base (bytes "!<") = false -> reads base st (skipn amt base) st'))
    (~ tame base) (scan_node_tag o base st).
Proof.
  unfold scan_node_tag. eapply leaf_bind; [prim|]. intros _ _.
  apply (leaf_bind o (fun '(tok, buf, amt, st') =>
     exists k, buf = skipn k base /\ is_boundary base k = true /\ amt <= List.length buf /\
     0 < k + amt /\ sread st <= sread st' <= sread st + (k + amt) /\
     (starts_with base (bytes "!<") = false -> reads base st (skipn (k + amt) base) st'))).
  - destruct (starts_with base (bytes "!<")) eqn:V.
    + apply starts_with_iff in V as (r & ->).
      eapply leaf_bind.
      { eapply leaf_impl; [apply skip_leaf'; cbn; lia|intros a X; exact X|apply tame_ascii]. }
      intros buf [-> B2]. change (skipn 2 (bytes "!<" ++ r)) with r.
      eapply leaf_bind.
      { eapply leaf_impl; [apply scan_tag_uri_leaf|intros a X; exact X|].
        intros X Y. exact (X (tame_skipn (bytes "!<" ++ r) 2 Y)). }
      intros [[[uri amt] st1] borrow] (R & L & _).
      eapply leaf_bind; [prim|]. intros _ _.
      destruct (at_is r (amt + 1) 62) eqn:G.
      * cbn [leaf]. exists 2. split; [reflexivity|]. split; [exact B2|].
        apply at_is_nonempty in G. split; [lia|]. split; [lia|].
        split; [|discriminate]. apply reads_len in R as (_ & E & _).
        rewrite skipn_length in E. lia.
      * destruct (Nat.ltb _ _); apply leaf_err; discriminate.
    + eapply leaf_bind.
      { eapply leaf_impl; [apply scan_tag_handle_leaf|intros a X; exact X|apply tame_ascii]. }
      intros [[[h amt]|] st1].
      * intros (L & R & E & HP).
        assert (SM : sread st <= sread st1 <= sread st + amt).
        { apply reads_len in R as (_ & X & _). rewrite skipn_length in X. lia. }
        destruct h as [h|h|h].
        { cbn [leaf]. exists 0. cbn [skipn Nat.add]. repeat split; auto; lia. }
        all: eapply leaf_bind;
          [eapply leaf_impl; [apply skip_leaf'; lia|intros a X; exact X|apply tame_ascii]|];
          intros buf [-> BD];
          (eapply leaf_bind;
            [eapply leaf_impl; [apply scan_tag_uri_leaf|intros a X; exact X|];
             intros X Y; exact (X (tame_skipn _ _ Y))|]);
          intros [[[uri amt2] st2] borrow] (R2 & L2 & _); cbn [leaf];
          exists amt; (split; [reflexivity|]); (split; [exact BD|]); (split; [exact L2|]);
          (split; [lia|]);
          (assert (R02 : reads base st (skipn (amt + amt2) base) st2)
             by (eapply reads_trans; [exact R|rewrite <- skipn_skipn; exact R2]));
          (split; [|intros _; exact R02]);
          apply reads_len in R02 as (X1 & X2 & _); rewrite skipn_length in X1, X2; lia.
      * intros (-> & b & r & ->).
        eapply leaf_bind; [prim|]. intros _ _.
        eapply leaf_bind.
        { eapply leaf_impl; [apply slice0_leaf; cbn; lia|intros a X; exact X|apply tame_ascii]. }
        intros handle [-> BD].
        eapply leaf_bind.
        { apply (adv_plain o (33%N :: b :: r) st 1 (~ tame (33%N :: b :: r))); [cbn; lia| |apply tame_ascii].
          constructor; [exact bang_plain|constructor]. }
        intros [buf st2] [R ->]. cbn [skipn] in *.
        eapply leaf_bind.
        { eapply leaf_impl; [apply scan_tag_uri_leaf|intros a X; exact X|].
          intros X Y. exact (X (reads_tame _ _ _ _ R Y)). }
        intros [[[uri amt2] st3] borrow] (R2 & L2 & _). cbn [leaf].
        exists 1. split; [reflexivity|]. split; [exact BD|]. split; [exact L2|].
        split; [lia|].
        assert (R02 : reads (33%N :: b :: r) st (skipn (1 + amt2) (33%N :: b :: r)) st3)
          by (eapply reads_trans; [exact R|exact R2]).
        split; [|intros _; exact R02].
        apply reads_len in R02 as (X1 & X2 & _). rewrite skipn_length in X1, X2. lia.
  - intros [[[tok buf] amt] st1] (k & -> & BK & LA & PO & SM & RD).
    eapply leaf_bind.
    { eapply leaf_impl; [apply skip_leaf'; exact LA|intros a X; exact X|].
      intros X Y. exact (X (proj1 (tame_skipn _ _ Y))). }
    intros b2 [-> B2]. cbn [leaf].
    pose proof (boundary_le _ _ BK). rewrite skipn_length in LA.
    replace (consumed base (skipn amt (skipn k base))) with (k + amt)
      by (unfold consumed; rewrite !skipn_length; lia).
    repeat split; auto; try lia. apply boundary_add; assumption.
Qed.

Lemma scan_directive_leaf o base st k :
  leaf o (fun '(tok, buf, st') => reads base st buf st') (~ tame base) (scan_directive o base st k).
Proof.
  unfold scan_directive.
  eapply leaf_bind.
  { eapply leaf_impl; [apply eat_ws_leaf|intros a X; exact X|apply tame_ascii]. }
  intros [buf st1] R1.
  assert (V : forall s, leaf o (fun '(_, n) => n <= List.length s /\ Forall plain_byte (firstn n s))
                          (~ tame base) (scan_directive_version o s)).
  { intros s. unfold scan_directive_version. eapply leaf_bind; [apply take_while_leaf|].
    intros n [L F]. destruct (atoi_u8 _); [|apply leaf_err; discriminate].
    split; [exact L|]. eapply Forall_imp; [exact digit_plain|exact F]. }
  assert (AD : forall s st n, reads base st1 s st \/ True -> (tame base -> tame s) ->
     n <= List.length s -> Forall plain_byte (firstn n s) ->
     leaf o (fun '(s', st') => reads s st s' st' /\ s' = skipn n s) (~ tame base) (adv s st n)).
  { intros s s1 n _ T L F. apply adv_plain; auto. intros X Y. exact (X (proj1 (T Y))). }
  pose proof (reads_tame _ _ _ _ R1) as T1.
  destruct k.
  - eapply leaf_bind; [apply V|]. intros [major n] [L F].
    eapply leaf_bind; [apply AD; auto|]. intros [b2 st2] [R2 ->].
    pose proof (reads_trans _ _ _ _ _ _ R1 R2) as R12.
    eapply leaf_bind; [prim|]. intros _ _.
    destruct (skipn n buf) as [|b t] eqn:S; [apply leaf_err; discriminate|].
    destruct (b =? 46)%N eqn:D; [|apply leaf_err; discriminate]. apply N.eqb_eq in D. subst.
    eapply leaf_bind.
    { apply AD; auto. - exact (reads_tame _ _ _ _ R12). - cbn; lia.
      - constructor; [repeat split; cbn; discriminate|constructor]. }
    intros [b3 st3] [R3 ->]. cbn [skipn] in *.
    pose proof (reads_trans _ _ _ _ _ _ R12 R3) as R13.
    eapply leaf_bind; [apply V|]. intros [minor n3] [L3 F3].
    eapply leaf_bind. { apply AD; auto. exact (reads_tame _ _ _ _ R13). }
    intros [b4 st4] [R4 ->]. cbn [leaf]. eapply reads_trans; eauto.
  - eapply leaf_bind.
    { eapply leaf_impl; [apply scan_tag_directive_leaf|intros a X; exact X|].
      intros X Y. exact (X (T1 Y)). }
    intros [[tok amt] st2] [R2 L2].
    eapply leaf_bind.
    { eapply leaf_impl; [apply skip_leaf'; exact L2|intros a X; exact X|].
      intros X Y. exact (X (proj1 (T1 Y))). }
    intros b2 [-> _]. cbn [leaf]. eapply reads_trans; eauto.
Qed.
