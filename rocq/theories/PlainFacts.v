(** Contracts of plain scalars. *)
From Verif Require Export FlowFacts Plain.
From Coq Require Import Lia.

Definition asciib (s : str) : bool := forallb (fun b => N.ltb b 128) s.
Lemma asciib_iff s : asciib s = true <-> ascii s.
Proof.
  unfold asciib, ascii. rewrite forallb_forall, Forall_forall.
  split; intros H b I; specialize (H b I); apply N.ltb_lt; exact H.
Qed.
Lemma ascii_dec s : ascii s \/ ~ ascii s.
Proof. rewrite <- asciib_iff. destruct (asciib s); [left; reflexivity|right; discriminate]. Qed.

Lemma chop_leaf' o scr n (pan : Prop) : (~ pan -> n <= List.length scr) -> pan \/ ~ pan ->
  leaf o (fun r => r = firstn (List.length scr - n) scr /\ n <= List.length scr) pan (chop scr n).
Proof.
  intros H D. unfold chop. destruct (Nat.leb n (List.length scr)) eqn:E; cbn [leaf].
  - apply Nat.leb_le in E. auto.
  - apply Nat.leb_gt in E. destruct D as [D|D]; [exact D|]. apply H in D. lia.
Qed.

Section Plain.
  Variables (o : flags) (base : str) (st0 : stats).
  Let pan := ~ ascii base.

  Definition pat (s : fstate) : Prop := reads base st0 (f_buf s) (f_st s).
  (** The scratch space ends with at least [n] ASCII bytes that may be chopped. *)
  Definition tight (s : fstate) (n : nat) : Prop :=
    if f_bor s then f_scr s = [] /\ n <= consumed base (f_buf s)
    else ascii base -> ascii (f_scr s) /\ n <= List.length (f_scr s).
  Definition pok (s : fstate) (n : nat) : Prop := pat s /\ tight s n.

  Lemma pok_le s n m : m <= n -> pok s n -> pok s m.
  Proof.
    intros L [A T]. split; [exact A|]. unfold tight in *. destruct (f_bor s); [split; [tauto|lia]|].
    intros X. destruct (T X). split; [assumption|lia].
  Qed.

  Lemma pat_ascii s : pat s -> ascii base -> ascii (f_buf s).
  Proof. intros R. exact (reads_ascii _ _ _ _ R). Qed.

  Lemma p_adv1 s : pat s -> f_buf s <> [] -> is_break (f_buf s) = false ->
    leaf o (fun s' => pat s' /\ f_scr s' = f_scr s /\ f_bor s' = f_bor s /\
                      f_buf s' = skipn 1 (f_buf s)) pan (f_adv s 1).
  Proof.
    intros R N B. unfold f_adv.
    eapply leaf_bind.
    { apply (adv1_stats o (f_buf s) (f_st s) pan N B).
      intros X Y. exact (X (pat_ascii _ R Y)). }
    intros [b st] (R' & _ & -> & ->). cbn [leaf]. split; [|auto].
    unfold pat. cbn. eapply reads_trans; eauto.
  Qed.
  Lemma p_adv_line s : pat s -> is_break (f_buf s) = true ->
    leaf o (fun s' => pat s' /\ f_scr s' = f_scr s /\ f_bor s' = f_bor s /\
                      List.length (f_buf s') < List.length (f_buf s)) pan (f_adv_line s).
  Proof.
    intros R B. unfold f_adv_line.
    eapply leaf_bind.
    { apply (adv_line_leaf' o (f_buf s) (f_st s) pan B).
      intros X Y. exact (X (pat_ascii _ R Y)). }
    intros [b st] (R' & L). cbn [leaf f_scr f_bor f_buf]. split; [|auto].
    unfold pat. cbn. eapply reads_trans; eauto.
  Qed.

  Lemma push_head_buf s : f_buf (f_push_head s) = f_buf s /\ f_st (f_push_head s) = f_st s /\
    f_bor (f_push_head s) = f_bor s.
  Proof. unfold f_push_head. destruct (f_bor s) eqn:E; cbn; auto. Qed.

  (** Copy one byte and move on. *)
  Lemma p_step s n : pok s n -> f_buf s <> [] -> is_break (f_buf s) = false ->
    leaf o (fun s' => pok s' (S n) /\ f_bor s' = f_bor s /\ f_buf s' = skipn 1 (f_buf s))
      pan (f_adv (f_push_head s) 1).
  Proof.
    intros [R T] N B. destruct (push_head_buf s) as (E1 & E2 & E3).
    eapply leaf_impl; [apply (p_adv1 (f_push_head s))| |auto].
    - unfold pat. rewrite E1, E2. exact R.
    - rewrite E1. exact N.
    - rewrite E1. exact B.
    - intros s' (R' & S' & B' & F'). rewrite E1 in F'. rewrite E3 in B'.
      split; [split; [exact R'|]|auto]. unfold tight in *. rewrite B', S', F'.
      unfold f_push_head. destruct (f_bor s) eqn:Bo.
      + destruct T as [T1 T2]. split; [exact T1|]. apply reads_len in R as (L & _).
        destruct (f_buf s) as [|x r]; [congruence|]. unfold consumed in *. cbn [skipn List.length] in *. lia.
      + cbn [f_push f_scr]. intros A. destruct (T A) as [T1 T2].
        split; [apply ascii_app; [exact T1|apply ascii_firstn, (pat_ascii _ R A)]|].
        destruct (f_buf s) as [|x r]; [congruence|]. rewrite app_length. cbn. lia.
  Qed.

  Lemma p_no_borrow_leaf s n : pok s n ->
    leaf o (fun s' => pok s' n /\ f_bor s' = false /\ f_buf s' = f_buf s /\ f_st s' = f_st s)
      pan (p_no_borrow base s).
  Proof.
    intros [R T]. unfold p_no_borrow. destruct (f_bor s) eqn:B.
    - rewrite (slice_reads _ _ _ _ R). cbn [bind leaf f_bor f_buf f_st].
      split; [|auto]. split; [exact R|]. unfold tight in *. cbn [f_bor f_scr]. rewrite B in T.
      destruct T as [-> T]. intros A. cbn [app]. split; [apply ascii_firstn, A|].
      rewrite firstn_length. unfold consumed in *. lia.
    - cbn [leaf]. unfold pok. auto.
  Qed.

  Lemma plain_word_leaf flow s n : pok s n ->
    leaf o (fun s' => pok s' 0 /\ (is_wsZ (f_buf s') || plain_end flow (f_buf s')) = true /\
              List.length (f_buf s') <= List.length (f_buf s) /\
              (is_wsZ (f_buf s) = false -> plain_end flow (f_buf s) = false ->
               List.length (f_buf s') < List.length (f_buf s)))
      pan (plain_word o flow s).
  Proof.
    intros P0. unfold plain_word.
    apply (leaf_loop o _
      (fun s' => pok s' 0 /\ (s' = s \/ List.length (f_buf s') < List.length (f_buf s)))
      (fun s' => List.length (f_buf s'))); [|split; [apply (pok_le s n); [lia|exact P0]|left; reflexivity]|unfold fuel_of; lia].
    clear P0. intros s1 [P LE]. unfold plain_word_body.
    assert (FIN : is_wsZ (f_buf s1) || plain_end flow (f_buf s1) = true ->
      pok s1 0 /\ is_wsZ (f_buf s1) || plain_end flow (f_buf s1) = true /\
      List.length (f_buf s1) <= List.length (f_buf s) /\
      (is_wsZ (f_buf s) = false -> plain_end flow (f_buf s) = false ->
       List.length (f_buf s1) < List.length (f_buf s))).
    { intros X. split; [exact P|]. split; [exact X|]. split; [destruct LE as [->|]; lia|].
      intros Y Z. destruct LE as [->|LE]; [|exact LE]. rewrite Y, Z in X. discriminate. }
    destruct (is_wsZ (f_buf s1)) eqn:WS.
    { cbn [leaf orb] in *. rewrite WS. apply FIN. reflexivity. }
    eapply leaf_bind; [prim|]. intros _ _.
    destruct (plain_end flow (f_buf s1)) eqn:PE.
    { cbn [leaf orb] in *. rewrite WS, PE. apply FIN. reflexivity. }
    assert (NE : f_buf s1 <> []) by (intros E; rewrite E in WS; discriminate).
    eapply leaf_bind.
    { apply (p_step s1 0 P NE). apply (no_break_at1 _ NE WS 0). lia. }
    intros s2 (P2 & _ & E2). cbn [leaf].
    assert (L : List.length (f_buf s2) < List.length (f_buf s1)).
    { rewrite E2, skipn_length. destruct (f_buf s1); [congruence|cbn; lia]. }
    split; [|exact L]. split; [apply (pok_le s2 1); [lia|exact P2]|]. right. destruct LE as [->|]; lia.
  Qed.

  Lemma plain_ws_leaf s : pok s 0 ->
    leaf o (fun x : fstate * nat * nat => let '(s', ws, lines) := x in
              pok s' ws /\ is_ws (f_buf s') = false /\
              List.length (f_buf s') <= List.length (f_buf s) /\ (f_bor s' = true -> lines = 0))
      pan (plain_ws o base s).
  Proof.
    intros P0. unfold plain_ws.
    apply (leaf_loop o _
      (fun x : fstate * nat * nat => let '(s', ws, lines) := x in
         pok s' ws /\ List.length (f_buf s') <= List.length (f_buf s) /\ (f_bor s' = true -> lines = 0))
      (fun x : fstate * nat * nat => let '(s', _, _) := x in List.length (f_buf s')));
      [|auto|unfold fuel_of; lia].
    clear P0. intros [[s1 ws] lines] (P & LE & BL0). unfold plain_ws_body.
    eapply leaf_bind; [prim|]. intros _ _.
    destruct (is_blank (f_buf s1)) eqn:BL.
    - pose proof (is_blank_nonempty _ BL) as NE.
      eapply leaf_bind; [apply (p_step s1 ws P NE), is_blank_not_break, BL|].
      intros s2 (P2 & B2 & E2). cbn [leaf].
      assert (L : List.length (f_buf s2) < List.length (f_buf s1)).
      { rewrite E2, skipn_length. destruct (f_buf s1); [congruence|cbn; lia]. }
      split; [|exact L]. split; [exact P2|]. split; [lia|]. rewrite B2. exact BL0.
    - destruct (is_break (f_buf s1)) eqn:BR.
      + eapply leaf_bind; [apply (p_no_borrow_leaf s1 ws P)|].
        intros s2 ((R2 & T2) & B2 & E2 & ST2).
        eapply leaf_bind; [apply (p_adv_line s2 R2); rewrite E2; exact BR|].
        intros s3 (R3 & S3 & B3 & L3). cbn [leaf]. rewrite E2 in L3.
        split; [|exact L3]. split; [|split; [lia|rewrite B3, B2; discriminate]].
        split; [exact R3|]. unfold tight in *. rewrite B3, S3, B2. rewrite B2 in T2. exact T2.
      + cbn [leaf]. split; [exact P|]. unfold is_ws. rewrite BL, BR. auto.
  Qed.

  Lemma plain_join_leaf s ws lines : pok s ws -> (f_bor s = true -> lines = 0) ->
    leaf o (fun x : fstate * nat * nat => let '(s', ws', lines') := x in
              pok s' (ws' + lines') /\ f_buf s' = f_buf s /\ f_st s' = f_st s)
      pan (plain_join s ws lines).
  Proof.
    intros [R T] BL. unfold plain_join. destruct lines as [|n].
    - cbn [leaf]. rewrite Nat.add_0_r. split; [split; assumption|auto].
    - assert (B : f_bor s = false) by (destruct (f_bor s); [discriminate (BL eq_refl)|reflexivity]).
      unfold tight in T. rewrite B in T.
      eapply leaf_bind.
      { apply (chop_leaf' o (f_scr s) ws pan).
        - intros N. destruct (ascii_dec base) as [A|A]; [|destruct (N A)]. apply (T A).
        - destruct (ascii_dec base) as [A|A]; [right; intros X; exact (X A)|left; exact A]. }
      intros scr [-> L].
      destruct n as [|n]; cbn [leaf f_push f_buf f_st]; (split; [split; [exact R|]|auto]);
        unfold tight; cbn [f_push f_bor f_scr]; rewrite B; intros A; destruct (T A) as [T1 T2].
      + split; [apply ascii_app; [apply ascii_firstn, T1|repeat constructor]|].
        rewrite app_length. cbn. lia.
      + split; [apply ascii_app; [apply ascii_firstn, T1|]|].
        * change (10%N :: repeat 10%N n) with (repeat 10%N (S n)). apply ascii_repeat. reflexivity.
        * rewrite app_length. cbn. rewrite repeat_length. lia.
  Qed.
End Plain.

(** What dispatch has checked before a plain scalar is scanned. *)
Definition plain_first (base : str) (st : stats) (block : bool) : Prop :=
  is_wsZ base = false /\ is_doc_indicator base (scol st) = false /\ at_is base 0 35 = false /\
  plain_end (negb block) base = false.

Definition plain_inv (base : str) (st : stats) (p : pstate) : Prop :=
  pok base st (p_f p) (p_ws p + p_lines p) /\
  (p = mkP (mkF base st [] true) st false 0 0 \/
   List.length (f_buf (p_f p)) < List.length base /\
   exists b, reads base st b (p_scalar p) /\ List.length b < List.length base).

Lemma plain_body_leaf o base st indent block p :
  plain_first base st block -> plain_inv base st p ->
  leaf o (fun x => match x with
                   | Next p' => plain_inv base st p' /\
                                List.length (f_buf (p_f p')) < List.length (f_buf (p_f p))
                   | Done p' => p' = p /\ exists b, reads base st b (p_scalar p) /\ List.length b < List.length base
                   end) (~ ascii base) (plain_body o base indent block p).
Proof.
  intros F (P & SH). unfold plain_body.
  eapply leaf_bind; [prim|]. intros _ _.
  destruct (_ || plain_end (negb block) (f_buf (p_f p))) eqn:C.
  { cbn [leaf]. split; [reflexivity|].
    destruct SH as [E|[_ SH]]; [|exact SH]. exfalso. subst p. cbn [p_f f_buf f_st p_outdent] in C.
    destruct F as (F1 & F2 & F3 & F4). rewrite F2, F3, F4 in C.
    destruct base; [discriminate|]. discriminate. }
  assert (PE : plain_end (negb block) (f_buf (p_f p)) = false).
  { destruct (plain_end _ _); [rewrite orb_true_r in C; discriminate|reflexivity]. }
  eapply leaf_bind; [apply (plain_word_leaf o base st (negb block) _ _ P)|].
  intros s1 (P1 & E1 & L1 & M1).
  eapply leaf_bind; [apply (plain_ws_leaf o base st s1 P1)|].
  intros [[s2 ws] lines] (P2 & W2 & L2 & B2).
  eapply leaf_bind; [apply (plain_join_leaf o base st s2 ws lines P2 B2)|].
  intros [[s3 ws'] lines'] (P3 & E3 & _). cbn [leaf].
  (* progress: a word or white space *)
  assert (PR : List.length (f_buf s2) < List.length (f_buf (p_f p))).
  { destruct (is_wsZ (f_buf (p_f p))) eqn:WZ; [|specialize (M1 eq_refl PE); lia].
    destruct (Nat.eq_dec (List.length (f_buf s2)) (List.length (f_buf (p_f p)))) as [E|]; [|lia]. exfalso.
    assert (S2 : f_buf s2 = f_buf (p_f p)).
    { destruct P2 as [R2 _], P as [R0 _]. apply reads_len in R2 as (_ & _ & R2). apply reads_len in R0 as (_ & _ & R0).
      rewrite R2, E, <- R0. reflexivity. }
    rewrite S2 in W2. unfold is_wsZ in WZ. unfold is_ws in W2. rewrite W2 in WZ. cbn in WZ.
    rewrite WZ in C. discriminate. }
  assert (LB : List.length (f_buf (p_f p)) <= List.length base).
  { destruct P as [R0 _]. apply reads_len in R0. lia. }
  split; [|cbn [p_f]; rewrite E3; lia].
  split; [exact P3|]. right. cbn [p_scalar p_f]. rewrite E3. split; [lia|].
  exists (f_buf s1). split; [apply P1|].
  destruct SH as [E|[SH _]]; [|lia].
  subst p. cbn [p_f f_buf] in *. destruct F as (F1 & F2 & F3 & F4). specialize (M1 F1 PE). lia.
Qed.

Lemma scan_plain_eager_leaf o base st indent block : plain_first base st block ->
  leaf o (fun x : token * nat * stats => let '(tok, amt, st') := x in
            0 < amt <= List.length base /\ reads base st (skipn amt base) st' /\
            exists t, tok = TScalar t Plain)
    (~ ascii base) (scan_plain_scalar_eager o base st indent block).
Proof.
  intros F. unfold scan_plain_scalar_eager.
  eapply leaf_bind; [prim|]. intros _ _.
  destruct (negb block && _ && _); [apply leaf_err; discriminate|].
  eapply leaf_bind.
  { apply (leaf_loop o _ (plain_inv base st) (fun p => List.length (f_buf (p_f p)))
      (fun p => plain_inv base st p /\ exists b, reads base st b (p_scalar p) /\ List.length b < List.length base)).
    - intros p I. eapply leaf_impl; [apply (plain_body_leaf o base st indent block p F I)| |auto].
      intros [p'|p'] H; [exact H|]. destruct H as [-> H]. auto.
    - split; [|left; reflexivity]. split; [constructor|]. unfold tight. cbn. split; [reflexivity|lia].
    - cbn. unfold fuel_of. lia. }
  intros p [[[R T] _] (b & RB & LB)].
  assert (D : ~ ascii base \/ ~ ~ ascii base).
  { destruct (ascii_dec base) as [A|A]; [right; intros X; exact (X A)|left; exact A]. }
  assert (EB : b = skipn (sread (p_scalar p) - sread st) base /\ sread (p_scalar p) - sread st = List.length base - List.length b).
  { apply reads_len in RB as (X & Y & Z). split; [rewrite Z at 1; f_equal; lia|lia]. }
  destruct EB as [EB EA].
  eapply leaf_bind with (P := fun scr : str => f_bor (p_f p) = false -> ascii base -> ascii scr).
  { unfold tight in T. destruct (f_bor (p_f p)) eqn:B; [cbn [leaf]; discriminate|].
    eapply leaf_impl; [apply (chop_leaf' o (f_scr (p_f p)) (p_ws p + p_lines p) (~ ascii base))| |auto].
    - intros N. destruct (ascii_dec base) as [A|A]; [apply (T A)|destruct (N A)].
    - exact D.
    - intros r [-> _] _ A. apply ascii_firstn, (T A). }
  intros scr V.
  eapply leaf_bind with (P := fun _ => True).
  { destruct (f_bor (p_f p)) eqn:B.
    - replace (sread (p_scalar p) - sread st) with (consumed base b) by (unfold consumed; lia).
      rewrite (slice_reads _ _ _ _ RB). exact Logic.I.
    - unfold utf8_unwrap. destruct (valid_utf8 scr) eqn:VU; [exact Logic.I|].
      cbn. intros A. pose proof (valid_ascii _ (V eq_refl A)) as X. unfold valid in X. congruence. }
  intros text _. cbn [leaf]. split; [lia|]. split; [rewrite <- EB; exact RB|]. eexists; reflexivity.
Qed.

(** ** Lazy scanning *)
Lemma plain_lazy_word_leaf o flow buf st (pan : Prop) : (~ ascii buf -> pan) ->
  leaf o (fun x : str * stats * option nat => let '(buf', st', stop) := x in
            reads buf st buf' st' /\
            (match stop with
             | None => is_wsZ buf' = true
             | Some n => plain_end flow buf' = true /\ 0 < n <= List.length buf' /\
                         n = (if is_ws_at buf' 1 then 2 else 1)
             end) /\
            (is_wsZ buf = false -> plain_end flow buf = false -> List.length buf' < List.length buf))
    pan (loop (fuel_of buf) (plain_lazy_word_body o flow) (buf, st)).
Proof.
  intros NA.
  apply (leaf_loop o _
    (fun x : str * stats => let '(buf', st') := x in
       reads buf st buf' st' /\ ((buf', st') = (buf, st) \/ List.length buf' < List.length buf))
    (fun x : str * stats => List.length (fst x))); [|split; [constructor|auto]|unfold fuel_of; cbn; lia].
  intros [b1 st1] [R LE]. unfold plain_lazy_word_body.
  destruct (is_wsZ b1) eqn:WS.
  { cbn [leaf]. split; [exact R|]. split; [exact WS|]. intros X Y.
    destruct LE as [E|LE]; [|exact LE]. injection E as -> ->. congruence. }
  eapply leaf_bind; [prim|]. intros _ _.
  assert (NE : b1 <> []) by (intros E; rewrite E in WS; discriminate).
  destruct (plain_end flow b1) eqn:PE.
  { cbn [leaf]. split; [exact R|]. split.
    - split; [exact PE|]. split; [|reflexivity]. split; [destruct (is_ws_at b1 1); lia|].
      destruct b1 as [|x [|y t]]; [congruence| |]; cbn.
      + unfold is_ws_at. cbn. lia.
      + destruct (is_ws_at (x :: y :: t) 1); lia.
    - intros X Y. destruct LE as [E|LE]; [|exact LE]. injection E as -> ->. congruence. }
  eapply leaf_bind.
  { apply (adv1_leaf o b1 st1 pan NE).
    - apply (no_break_at1 _ NE WS 0). lia.
    - intros X. apply NA. intros Y. exact (X (reads_ascii _ _ _ _ R Y)). }
  intros [b2 st2] [R2 L2]. cbn [leaf fst]. split; [|exact L2].
  split; [eapply reads_trans; eauto|]. right. destruct LE as [E|LE]; [injection E as -> ->|]; lia.
Qed.

Lemma plain_lazy_ws_leaf o buf st (pan : Prop) : (~ ascii buf -> pan) ->
  leaf o (fun x : str * stats => let '(buf', st') := x in reads buf st buf' st' /\ is_ws buf' = false)
    pan (loop (fuel_of buf) (plain_lazy_ws_body o) (buf, st)).
Proof.
  intros NA.
  apply (leaf_loop o _
    (fun x : str * stats => let '(buf', st') := x in reads buf st buf' st')
    (fun x : str * stats => List.length (fst x))); [|constructor|unfold fuel_of; cbn; lia].
  intros [b1 st1] R. unfold plain_lazy_ws_body.
  assert (NA1 : ~ ascii b1 -> pan).
  { intros X. apply NA. intros Y. exact (X (reads_ascii _ _ _ _ R Y)). }
  eapply leaf_bind; [prim|]. intros _ _.
  destruct (is_blank b1) eqn:BL.
  - eapply leaf_bind; [apply (adv1_leaf o b1 st1 pan (is_blank_nonempty _ BL) (is_blank_not_break _ BL) NA1)|].
    intros [b2 st2] [R2 L2]. cbn [leaf fst]. split; [eapply reads_trans; eauto|exact L2].
  - destruct (is_break b1) eqn:BR.
    + eapply leaf_bind; [apply (adv_line_leaf' o b1 st1 pan BR NA1)|].
      intros [b2 st2] [R2 L2]. cbn [leaf fst]. split; [eapply reads_trans; eauto|exact L2].
    + cbn [leaf]. split; [exact R|]. unfold is_ws. rewrite BL, BR. reflexivity.
Qed.

Lemma scan_plain_lazy_leaf o base st indent block : plain_first base st block ->
  leaf o (fun x : deferred * nat * stats => let '(d, amt, st') := x in
            0 < amt <= List.length base /\ reads base st (skipn amt base) st' /\
            exists k, amt <= k <= List.length base /\
              d = DPlain (no_extend o) (firstn k base) st indent block)
    (~ ascii base) (scan_plain_scalar_lazy o base st indent block).
Proof.
  intros F. unfold scan_plain_scalar_lazy. set (pan := ~ ascii base).
  eapply leaf_bind.
  { apply (leaf_loop o _
      (fun x : str * stats * stats * bool => let '(buf, local, scalar, outdent) := x in
         reads base st buf local /\
         ((buf, local, scalar, outdent) = (base, st, st, false) \/
          List.length buf < List.length base /\
          exists b, reads base st b scalar /\ List.length buf <= List.length b < List.length base))
      (fun x : str * stats * stats * bool => let '(buf, local, scalar, outdent) := x in List.length buf)
      (fun x : stats * stats => let '(local, scalar) := x in
         exists b, reads base st b scalar /\ List.length b < List.length base /\
           sread scalar <= sread local <= sread st + List.length base)).
    - intros [[[buf local] scalar] outdent] [R SH]. unfold plain_lazy_body.
      assert (NA : ~ ascii buf -> pan).
      { intros X Y. exact (X (reads_ascii _ _ _ _ R Y)). }
      eapply leaf_bind; [prim|]. intros _ _.
      destruct (_ || plain_end (negb block) buf) eqn:C.
      { cbn [leaf]. destruct SH as [E|(_ & b & RB & LB)].
        - exfalso. assert (buf = base) as -> by congruence. assert (local = st) as -> by congruence.
          assert (outdent = false) as -> by congruence.
          destruct F as (F1 & F2 & F3 & F4). rewrite F2, F3, F4 in C.
          destruct base; [discriminate|]. discriminate.
        - exists b. split; [exact RB|]. split; [lia|].
          apply reads_len in RB. apply reads_len in R. lia. }
      assert (PE : plain_end (negb block) buf = false).
      { destruct (plain_end _ _); [rewrite orb_true_r in C; discriminate|reflexivity]. }
      eapply leaf_bind; [apply (plain_lazy_word_leaf o (negb block) buf local pan NA)|].
      intros [[b1 st1] stop] (R1 & ST & M1).
      assert (R01 := reads_trans _ _ _ _ _ _ R R1).
      assert (SM : List.length b1 < List.length base).
      { destruct SH as [E|[SH _]].
        - assert (buf = base) as -> by congruence. destruct F as (F1 & F2 & F3 & F4). exact (M1 F1 PE).
        - apply reads_len in R1. lia. }
      destruct stop as [n|].
      + destruct ST as (_ & N & _). cbn [leaf]. exists b1. split; [exact R01|]. split; [exact SM|].
        apply reads_len in R01. unfold supd. cbn [sread]. lia.
      + assert (NA1 : ~ ascii b1 -> pan).
        { intros X Y. exact (X (reads_ascii _ _ _ _ R01 Y)). }
        eapply leaf_bind; [apply (plain_lazy_ws_leaf o b1 st1 pan NA1)|].
        intros [b2 st2] [R2 W2]. cbn [leaf].
        assert (PR : List.length b2 < List.length buf).
        { pose proof (reads_len _ _ _ _ R1) as LL1. pose proof (reads_len _ _ _ _ R2) as LL2.
          destruct (is_wsZ buf) eqn:WZ; [|specialize (M1 eq_refl PE); lia].
          destruct (Nat.eq_dec (List.length b2) (List.length buf)) as [E|]; [|lia]. exfalso.
          assert (S2 : b2 = buf).
          { destruct (reads_len _ _ _ _ (reads_trans _ _ _ _ _ _ R1 R2)) as (_ & _ & X).
            rewrite X, E, Nat.sub_diag. reflexivity. }
          rewrite S2 in W2. unfold is_wsZ in WZ. unfold is_ws in W2. rewrite W2 in WZ. cbn in WZ.
          rewrite WZ in C. discriminate. }
        split; [|exact PR]. split; [eapply reads_trans; eauto|]. right.
        pose proof (reads_len _ _ _ _ R2) as LL2. split; [lia|].
        exists b1. split; [exact R01|]. lia.
    - split; [constructor|]. left. reflexivity.
    - unfold fuel_of. lia. }
  intros [local scalar] (b & RB & LB & LS).
  assert (EB : b = skipn (sread scalar - sread st) base /\ sread scalar - sread st = List.length base - List.length b).
  { apply reads_len in RB as (X & Y & Z). split; [rewrite Z at 1; f_equal; lia|lia]. }
  destruct EB as [EB EA].
  set (k := sread local - sread st).
  assert (LK : List.length base - List.length b <= k <= List.length base).
  { apply reads_len in RB. unfold k. lia. }
  eapply leaf_bind with (P := fun t => t = firstn k base).
  { unfold slice. cbn [Nat.leb andb is_boundary skipn]. rewrite Nat.sub_0_r.
    destruct (is_boundary base k) eqn:B; [reflexivity|].
    cbn [leaf]. intros A. rewrite (ascii_boundary base k A) in B by lia. discriminate. }
  intros t ->. cbn [leaf]. split; [lia|]. split; [rewrite <- EB; exact RB|].
  exists k. split; [lia|reflexivity].
Qed.

Definition plain_token (m : maybe_token) : Prop :=
  match m with
  | Tok (TScalar _ Plain) => True
  | Lazy (DPlain _ _ _ _ _) => True
  | _ => False
  end.
Lemma scan_plain_leaf o base st c : plain_first base st (is_block c) ->
  leaf o (fun x : maybe_token * nat * stats => let '(tok, amt, st') := x in
            0 < amt <= List.length base /\ reads base st (skipn amt base) st' /\ plain_token tok)
    (~ ascii base) (scan_plain_scalar o base st c).
Proof.
  intros F. unfold scan_plain_scalar. destruct (lazy_mode o).
  - eapply leaf_bind; [apply scan_plain_lazy_leaf, F|].
    intros [[d amt] st'] (A & B & k & K & ->). cbn. auto.
  - eapply leaf_bind; [apply scan_plain_eager_leaf, F|].
    intros [[d amt] st'] (A & B & t & ->). cbn. auto.
Qed.
