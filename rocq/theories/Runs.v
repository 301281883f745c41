(** Whole executions of the scanner over a borrowed text, for any schedule of
    requests. *)
From Verif Require Export History.
From Coq Require Import Lia ZifyBool ZifyN ZifyNat Permutation.
Open Scope nat_scope.

(** ** One call of the scanner *)
Definition batch (o : flags) (t : str) (sc : scanner) : list entry * scanner * sres unit :=
  let '(sc', q, r) := scan_tokens o t sc q_new in (map snd (q_heap q), sc', r).

Lemma pushes_heap g : forall q, map snd (q_heap (pushes g q)) = map snd (q_heap q) ++ g.
Proof.
  induction g as [|x g IH]; intros q; cbn; [rewrite app_nil_r; reflexivity|].
  change (fold_left q_push g (q_push q x)) with (pushes g (q_push q x)).
  rewrite IH. cbn. rewrite map_app. cbn. rewrite <- app_assoc. reflexivity.
Qed.
Lemma pushes_len g q : q_len (pushes g q) = q_len q + List.length g.
Proof.
  unfold q_len. pose proof (f_equal (@List.length _) (pushes_heap g q)) as E.
  rewrite app_length, !map_length in E. exact E.
Qed.
Lemma holds_pushes g : forall q l, holds entry q l -> holds entry (pushes g q) (l ++ g).
Proof. intros q l H. apply fold_push. exact H. Qed.

(** Where the scanner stands in the text. *)
Definition stands (t : str) (b : str) (sc : scanner) : Prop :=
  get_from t (sc_offset sc) = Some b.
Definition settled (sc : scanner) : Prop :=
  sc_state sc = SDone \/ key_possible_now (sc_key sc) = false.

Definition left_to_do (b : str) (sc : scanner) : nat :=
  List.length b + (2 - phase (sc_state sc)).

Lemma round_less o b sc es b' sc' : round o b sc es b' sc' ->
  left_to_do b' sc' < left_to_do b sc.
Proof.
  unfold left_to_do. destruct 1 as [ST|es sc1 ST Q KN BE|e0 e1 es b1 sc0 sc2 sc1 fs b' sc' ST Q0 SB LV Q1 DS Q F A].
  - cbn. rewrite ST. cbn. lia.
  - cbn. rewrite ST. cbn. lia.
  - assert (L : List.length b1 <= List.length b /\ sc_state sc1 = sc_state sc).
    { destruct (quiet_state _ _ _ _ _ Q0) as [<- _], (quiet_state _ _ _ _ _ Q1) as [<- _]. split; [|apply (quiet_state _ _ _ _ _ Q)].
      pose proof (quiet_reads _ _ _ _ _ Q0) as R. apply reads_len in R. lia. }
    destruct L as [L E].
    assert (L2 : List.length b' < List.length b1 /\ sc_state sc' = sc_state sc1).
    { destruct A; subst; cbn; auto. destruct H1. auto. }
    destruct L2 as [L2 E2]. rewrite E2, E. lia.
Qed.

Lemma inv_offset o t h b sc n : inv o t h b sc -> inv o t h b (set_offset n sc).
Proof. intros I. destruct I. constructor; assumption. Qed.

Definition begun (sc : scanner) : Prop := sc_state sc = SStart -> sread (sc_st sc) = 0.
Lemma round_state o b sc es b' sc' : round o b sc es b' sc' -> sc_state sc' <> SStart.
Proof.
  destruct 1 as [ST|es sc1 ST Q KN BE|e0 e1 es b1 sc0 sc2 sc1 fs b' sc' ST Q0 SB LV Q1 DS Q F A]; try discriminate.
  assert (E : sc_state sc' = sc_state sc1) by (destruct A; reflexivity).
  rewrite E. destruct (quiet_state _ _ _ _ _ Q) as [-> _], (quiet_state _ _ _ _ _ Q1) as [-> _], (quiet_state _ _ _ _ _ Q0) as [-> _]. rewrite ST. discriminate.
Qed.
Lemma round_some o b sc es b' sc' : round o b sc es b' sc' -> es <> [].
Proof.
  destruct 1 as [ST|es sc1 ST Q KN BE|e0 e1 es b1 sc0 sc2 sc1 fs b' sc' ST Q0 SB LV Q1 DS Q F A]; [discriminate| |].
  - destruct es; discriminate.
  - intros E. do 2 apply app_eq_nil in E as [_ E]. apply app_eq_nil in E as [_ ->]. inversion A; subst; try destruct pre; discriminate.
Qed.

(** One round, seen from the loop. *)
Lemma scan_round_spec o t h b sc : extendable o = false -> inv o t h b sc -> stands t b sc -> begun sc ->
  sc_state sc <> SDone ->
  exists es sc' r, (forall q, scan_round o t sc q = (sc', pushes es q, r)) /\
    match r with
    | Ok _ => exists b', inv o t (h ++ es) b' sc' /\ stands t b' sc' /\ begun sc' /\ es <> [] /\
        left_to_do b' sc' < left_to_do b sc /\
        forall m, after_mark m sc -> Forall (fun e => m <= e_read e) es /\ after_mark m sc'
    | Err e => e <> Extend
    | Panic => ~ safe o t
    | Fuel => False
    end.
Proof.
  intros NE I G B ND.
  destruct (wp_round o b sc (i_valid _ _ _ _ _ I) ND) as (es & b' & sc' & r & E & O).
  exists es.
  exists (match r with Ok _ | Err Extend => set_offset (List.length t - List.length b') sc' | _ => sc' end), r.
  split.
  - intros q. unfold scan_round. rewrite G, E. cbn. destruct r as [a|e| |]; [reflexivity|destruct e; reflexivity|reflexivity|reflexivity].
  - destruct r as [a|e| |]; cbn in O.
    + exists b'. pose proof (round_inv o t _ _ _ _ _ O h I B) as I'.
      split; [apply inv_offset, I'|]. split.
      { unfold stands, get_from. cbn. destruct (i_suffix _ _ _ _ _ I') as (n & -> & BD).
        rewrite skipn_length. pose proof (boundary_le _ _ BD) as LE.
        replace (List.length t - (List.length t - n)) with n by lia. rewrite BD. reflexivity. }
      split; [intros X; destruct (round_state _ _ _ _ _ _ O X)|].
      split; [eapply round_some; eauto|]. split; [exact (round_less _ _ _ _ _ _ O)|].
      intros m A. exact (round_after m _ _ _ _ _ _ O A).
    + intros X. destruct (O X). congruence.
    + intros S. apply O. unfold stands, get_from in G. destruct (is_boundary t (sc_offset sc)) eqn:BD; [|discriminate].
      assert (b = skipn (sc_offset sc) t) as -> by congruence. apply safe_skipn, S.
    + exact O.
Qed.

Lemma scan_loop_spec o t : extendable o = false -> forall fuel h b sc, inv o t h b sc -> stands t b sc -> begun sc ->
  left_to_do b sc < fuel -> forall g0 : list entry,
  exists es sc' r,
    (forall q0, scan_loop fuel o t (q_len q0) sc (pushes g0 q0) = (sc', pushes (g0 ++ es) q0, r)) /\
    match r with
    | Ok _ => exists b', inv o t (h ++ es) b' sc' /\ stands t b' sc' /\ begun sc' /\ settled sc' /\
        (g0 ++ es = [] -> sc_state sc' = SDone) /\
        (sc_state sc = SDone -> es = [] /\ sc' = sc) /\
        left_to_do b' sc' <= left_to_do b sc /\ (es <> [] -> left_to_do b' sc' < left_to_do b sc) /\
        forall m, after_mark m sc -> Forall (fun e => m <= e_read e) es /\ after_mark m sc'
    | Err e => e <> Extend
    | Panic => ~ safe o t
    | Fuel => False
    end.
Proof.
  intros NE. induction fuel as [|fuel IH]; intros h b sc I G B L g0; [lia|].
  destruct (match sc_state sc with SDone => true | _ => false end ||
            (negb (is_empty g0) && negb (key_possible_now (sc_key sc)))) eqn:W.
  - exists [], sc, (Ok tt). rewrite !app_nil_r.
    assert (WM : forall q0, want_more (q_len q0) sc (pushes g0 q0) = false).
    { intros q0. unfold want_more. rewrite pushes_len. destruct (sc_state sc); try reflexivity;
      cbn in W; destruct g0; try discriminate W; cbn in *;
      destruct (Nat.eqb_spec (q_len q0) (q_len q0 + S (List.length g0))); [lia| |lia|]; cbn;
      apply negb_true_iff; exact W. }
    split; [intros q0; cbn [scan_loop]; rewrite WM; reflexivity|].
    exists b. split; [exact I|]. split; [exact G|]. split; [exact B|].
    split; [unfold settled; destruct (sc_state sc); [|right|left; reflexivity]; [right|]; cbn in W;
      apply andb_prop in W as [_ W]; apply negb_true_iff in W; exact W|].
    split; [intros ->; destruct (sc_state sc); try reflexivity; discriminate W|].
    split; [auto|]. split; [lia|]. split; [congruence|]. intros m A. split; [constructor|exact A].
  - apply orb_false_iff in W as [W1 W2].
    assert (ND : sc_state sc <> SDone) by (intros X; rewrite X in W1; discriminate).
    assert (WM : forall q0, want_more (q_len q0) sc (pushes g0 q0) = true).
    { intros q0. unfold want_more. rewrite pushes_len.
      assert (X : Nat.eqb (q_len q0) (q_len q0 + List.length g0) || key_possible_now (sc_key sc) = true).
      { destruct g0; cbn in *; [rewrite Nat.add_0_r, Nat.eqb_refl; reflexivity|].
        apply negb_false_iff in W2. rewrite W2. apply orb_true_r. }
      rewrite X. destruct (sc_state sc); congruence. }
    destruct (scan_round_spec o t h b sc NE I G B ND) as (es & sc' & r & E & O).
    destruct r as [a|e| |].
    + destruct O as (b' & I' & G' & B' & NEs & L' & A').
      destruct (IH _ _ _ I' G' B' ltac:(lia) (g0 ++ es)) as (es2 & sc2 & r2 & E2 & O2).
      exists (es ++ es2), sc2, r2. split.
      * intros q0. cbn [scan_loop]. rewrite WM, E, <- pushes_app, E2. rewrite app_assoc. reflexivity.
      * destruct r2 as [a2|e2| |]; auto. destruct O2 as (b2 & I2 & G2 & B2 & S2 & D2 & K2 & M2 & M3 & A2).
        exists b2. rewrite (app_assoc h). split; [exact I2|]. split; [exact G2|]. split; [exact B2|]. split; [exact S2|].
        split; [rewrite app_assoc; exact D2|].
        split; [intros X; contradiction|].
        split; [lia|]. split; [lia|].
        intros m A. destruct (A' m A) as [F1 A1]. destruct (A2 m A1) as [F2 A3].
        split; [apply Forall_app; auto|exact A3].
    + exists es, sc', (Err e). split; [intros q0; cbn [scan_loop]; rewrite WM, E, <- pushes_app; reflexivity|exact O].
    + exists es, sc', Panic. split; [intros q0; cbn [scan_loop]; rewrite WM, E, <- pushes_app; reflexivity|exact O].
    + destruct O.
Qed.

Lemma batch_spec o t h b sc : extendable o = false -> inv o t h b sc -> stands t b sc -> begun sc ->
  let '(es, sc', r) := batch o t sc in
  (forall q, scan_tokens o t sc q = (sc', pushes es q, r)) /\
  match r with
  | Ok _ => exists b', inv o t (h ++ es) b' sc' /\ stands t b' sc' /\ begun sc' /\ settled sc' /\
      (es = [] -> sc_state sc' = SDone) /\
      (sc_state sc = SDone -> es = [] /\ sc' = sc) /\
      left_to_do b' sc' <= left_to_do b sc /\ (es <> [] -> left_to_do b' sc' < left_to_do b sc) /\
      forall m, after_mark m sc -> Forall (fun e => m <= e_read e) es /\ after_mark m sc'
  | Err e => e <> Extend
  | Panic => ~ safe o t
  | Fuel => False
  end.
Proof.
  intros NE I G B. unfold batch.
  assert (L : left_to_do b sc < List.length t + 3).
  { unfold left_to_do. destruct (i_suffix _ _ _ _ _ I) as (n & -> & _). rewrite skipn_length. lia. }
  destruct (scan_loop_spec o t NE _ h b sc I G B L []) as (es & sc' & r & E & O).
  cbn [app] in *.
  assert (EQ : forall q, scan_tokens o t sc q = (sc', pushes es q, r)) by (intros q; exact (E q)).
  rewrite EQ, pushes_heap. cbn [q_heap q_new map app]. split; [exact EQ|exact O].
Qed.

(** ** The sequence of calls *)
Fixpoint calls (o : flags) (t : str) (k : nat) : list entry * scanner * sres unit :=
  match k with
  | O => ([], scanner0, Ok tt)
  | S k =>
      match calls o t k with
      | (h, sc, Ok _) =>
          let '(es, sc', r) := batch o t sc in
          (match r with Ok _ => h ++ es | _ => h end, sc', r)
      | x => x
      end
  end.

Definition good (o : flags) (t : str) (h : list entry) (sc : scanner) : Prop :=
  exists b, inv o t h b sc /\ stands t b sc /\ begun sc /\ settled sc.

Lemma good_start o t : valid t -> good o t [] scanner0.
Proof.
  intros V. exists t. split; [apply inv_start, V|].
  split; [unfold stands, get_from; destruct t; reflexivity|].
  split; [intros _; reflexivity|right; reflexivity].
Qed.

Lemma settled_after sc : sc_state sc <> SDone -> settled sc -> after_mark (sread (sc_st sc)) sc.
Proof.
  intros N [D|K]; [contradiction|]. split; [lia|]. apply not_possible, K.
Qed.

(** What one more call adds comes after everything there is. *)
Lemma good_step o t h sc : extendable o = false -> good o t h sc ->
  let '(es, sc', r) := batch o t sc in
  (forall q, scan_tokens o t sc q = (sc', pushes es q, r)) /\
  match r with
  | Ok _ => good o t (h ++ es) sc' /\ isort (h ++ es) = isort h ++ isort es /\
      (es = [] -> sc_state sc' = SDone) /\ (sc_state sc = SDone -> es = [] /\ sc' = sc)
  | Err e => e <> Extend
  | Panic => ~ safe o t
  | Fuel => False
  end.
Proof.
  intros NE (b & I & G & B & S). pose proof (batch_spec o t h b sc NE I G B) as H.
  destruct (batch o t sc) as [[es sc'] r]. destruct H as [E O]. split; [exact E|].
  destruct r as [a|e| |]; auto. destruct O as (b' & I' & G' & B' & S' & D & K & L & L' & A).
  split; [exists b'; auto|]. split; [|auto].
  destruct (sc_state sc) eqn:ST.
  3:{ destruct (K eq_refl) as [-> _]. cbn. rewrite !app_nil_r. reflexivity. }
  all: apply (isort_app h es (sread (sc_st sc))); [apply I|]; apply A, settled_after; [congruence|exact S].
Qed.

Lemma batch_done o t sc : sc_state sc = SDone -> batch o t sc = ([], sc, Ok tt).
Proof.
  intros D. unfold batch, scan_tokens. replace (List.length t + 3) with (S (List.length t + 2)) by lia.
  cbn [scan_loop]. unfold want_more. rewrite D. reflexivity.
Qed.

Lemma calls_good o t k : extendable o = false -> valid t ->
  match calls o t k with
  | (h, sc, Ok _) => good o t h sc
  | (h, _, Err e) => e <> Extend
  | (h, _, Panic) => ~ safe o t
  | (_, _, Fuel) => False
  end /\ exists sc, good o t (fst (fst (calls o t k))) sc /\
    (snd (calls o t k) <> Ok tt -> sc_state sc <> SDone).
Proof.
  intros NE V. induction k as [|k [IH (sc0 & G0)]]; cbn [calls].
  - split; [|exists scanner0; split; [|intros _; discriminate]]; apply good_start, V.
  - destruct (calls o t k) as [[h sc] [a|e| |]]; [|split; [exact IH|exists sc0; exact G0]..].
    pose proof (good_step o t h sc NE IH) as S. destruct (batch o t sc) as [[es sc'] r] eqn:B.
    destruct S as [_ O]. destruct r as [a'|e| |]; cbn [fst snd].
    + split; [apply O|]. exists sc'. split; [apply O|]. destruct a'. congruence.
    + split; [exact O|]. exists sc. split; [exact IH|]. intros _ D. rewrite (batch_done _ _ _ D) in B. discriminate.
    + split; [exact O|]. exists sc. split; [exact IH|]. intros _ D. rewrite (batch_done _ _ _ D) in B. discriminate.
    + destruct O.
Qed.

Lemma calls_prefix o t j : extendable o = false -> valid t -> forall k,
  exists l, isort (fst (fst (calls o t (k + j)))) = isort (fst (fst (calls o t k))) ++ l.
Proof.
  intros NE V. induction j as [|j IH]; intros k.
  - exists []. rewrite Nat.add_0_r, app_nil_r. reflexivity.
  - replace (k + S j) with (S (k + j)) by lia. destruct (IH k) as (l & E). cbn [calls].
    destruct (calls_good o t (k + j) NE V) as [G _].
    destruct (calls o t (k + j)) as [[h sc] [a|e| |]]; cbn [fst] in *; [|exists l; exact E..].
    pose proof (good_step o t h sc NE G) as S. destruct (batch o t sc) as [[es sc'] r].
    destruct S as [_ O]. destruct r as [a'|e| |]; cbn [fst]; [|exists l; exact E..].
    destruct O as (_ & -> & _). rewrite E, <- app_assoc. eauto.
Qed.

Lemma calls_stop o t j k : (forall a, snd (calls o t k) <> Ok a) -> calls o t (k + j) = calls o t k.
Proof.
  intros H. induction j as [|j IH]; [rewrite Nat.add_0_r; reflexivity|].
  replace (k + S j) with (S (k + j)) by lia. cbn [calls]. rewrite IH.
  destruct (calls o t k) as [[h sc] [a|e| |]]; [destruct (H a); reflexivity|reflexivity..].
Qed.
Lemma calls_done o t j k : extendable o = false -> valid t ->
  snd (calls o t k) = Ok tt -> sc_state (snd (fst (calls o t k))) = SDone ->
  calls o t (k + j) = calls o t k.
Proof.
  intros NE V E D. induction j as [|j IH]; [rewrite Nat.add_0_r; reflexivity|].
  replace (k + S j) with (S (k + j)) by lia. cbn [calls]. rewrite IH.
  destruct (calls_good o t k NE V) as [G _].
  destruct (calls o t k) as [[h sc] r]. cbn in E, D. subst r.
  rewrite (batch_done o t sc D), app_nil_r. reflexivity.
Qed.

(** ** Schedules *)
Fixpoint fills (s : list request) : nat :=
  match s with [] => 0 | Fill :: s => S (fills s) | Pull :: s => fills s end.

(** A reader after [k] calls of the scanner, [pops] having been taken. *)
Definition stage (o : flags) (t : str) (k : nat) (pops : list entry) (r : reader) : Prop :=
  r_in r = Borrow t /\ no_extend (r_opts r) = o /\
  (r_exhausted r = true -> sc_state (r_sc r) = SDone) /\
  exists h rest, calls o t k = (h, r_sc r, Ok tt) /\ holds entry (r_q r) rest /\
    isort h = pops ++ isort rest.

Lemma consumes_stage o t : extendable o = false -> valid t -> forall s k pops r,
  stage o t k pops r ->
  let (l, x) := consumes r s in
  match calls o t (k + fills s) with
  | (_, _, Ok _) => exists r', x = Ok r' /\ stage o t (k + fills s) (pops ++ l) r'
  | (h, _, Err e) => x = Err (RScan e) /\ exists rest, isort h = (pops ++ l) ++ rest
  | (h, _, Panic) => x = Panic /\ exists rest, isort h = (pops ++ l) ++ rest
  | (_, _, Fuel) => False
  end.
Proof.
  intros NE V. induction s as [|[] s IH]; intros k pops r ST; cbn [consumes fills].
  - rewrite Nat.add_0_r, app_nil_r. pose proof ST as (_ & _ & _ & h & rest & E & _). rewrite E. eauto.
  - destruct ST as (RI & RO & RX & h & rest & E & HQ & HS).
    pose proof (calls_good o t k NE V) as [G _]. rewrite E in G.
    pose proof (good_step o t h (r_sc r) NE G) as SS.
    replace (k + S (fills s)) with (S k + fills s) by lia.
    assert (EC : calls o t (S k) = let '(es, sc', r0) := batch o t (r_sc r) in
      (match r0 with Ok _ => h ++ es | _ => h end, sc', r0)) by (cbn [calls]; rewrite E; reflexivity).
    destruct (batch o t (r_sc r)) as [[es sc'] x] eqn:EB. destruct SS as [SE SO].
    unfold reader_scan, drive. rewrite RI, RO, SE.
    destruct x as [a|e| |]; cbn [map_err].
    + destruct a. destruct SO as (GG & HI & D & _).
      assert (ST' : stage o t (S k) pops
        (mkReader sc' (pushes es (r_q r)) (r_opts r) (Nat.eqb (q_len (r_q r)) (q_len (pushes es (r_q r)))) (Borrow t))).
      { split; [reflexivity|]. split; [exact RO|]. split.
        - cbn. rewrite pushes_len. intros X. apply Nat.eqb_eq in X. apply D. destruct es; [reflexivity|cbn in X; lia].
        - exists (h ++ es), (rest ++ es). split; [exact EC|]. split; [apply holds_pushes, HQ|].
          rewrite HI, HS. cbn. rewrite <- app_assoc. f_equal.
          pose proof G as (b & GI & GG' & GB & GS).
          pose proof (batch_spec o t h b _ NE GI GG' GB) as BS. rewrite EB in BS. destruct BS as (_ & b' & _ & _ & _ & _ & _ & K & _ & _ & A).
          assert (MK : Forall (fun e => e_read e <= sread (sc_st (r_sc r))) rest).
          { assert (M : Forall (fun e => e_read e <= sread (sc_st (r_sc r))) (isort h)).
            { apply (Permutation_Forall (Permutation_sym (isort_perm h))). apply GI. }
            rewrite HS in M. apply Forall_app in M as [_ M].
            apply (Permutation_Forall (isort_perm rest)), M. }
          destruct (sc_state (r_sc r)) eqn:STT.
          3:{ destruct (K eq_refl) as [-> _]. cbn. rewrite !app_nil_r. reflexivity. }
          all: symmetry; apply (isort_app rest es (sread (sc_st (r_sc r)))); [exact MK|];
            apply A, settled_after; [congruence|exact GS]. }
      exact (IH (S k) pops _ ST').
    + rewrite (calls_stop o t (fills s) (S k)) by (intros a; rewrite EC; discriminate).
      rewrite EC, app_nil_r. eauto.
    + rewrite (calls_stop o t (fills s) (S k)) by (intros a; rewrite EC; discriminate).
      rewrite EC, app_nil_r. eauto.
    + destruct SO.
  - destruct ST as (RI & RO & RX & h & rest & E & HQ & HS).
    pose proof (holds_pop entry entry_cmp entry_order _ _ HQ) as P.
    destruct (q_pop entry_cmp (r_q r)) as [[e|] q'].
    + destruct P as (rest' & TK & HQ'). apply takes_isort in TK.
      specialize (IH k (pops ++ [e]) (mkReader (r_sc r) q' (r_opts r) (r_exhausted r) (r_in r))).
      destruct (consumes _ s) as [l x]. rewrite <- app_assoc in IH. apply IH.
      split; [exact RI|]. split; [exact RO|]. split; [exact RX|]. exists h, rest'.
      split; [exact E|]. split; [exact HQ'|]. rewrite HS, TK, <- app_assoc. reflexivity.
    + destruct P as [-> ->].
      specialize (IH k pops (mkReader (r_sc r) (r_q r) (r_opts r) (r_exhausted r) (r_in r))).
      destruct (consumes _ s) as [l x]. apply IH.
      split; [exact RI|]. split; [exact RO|]. split; [exact RX|]. exists h, []. auto.
Qed.

Lemma stage_start o t : stage (no_extend o) t 0 [] (open t o).
Proof.
  split; [reflexivity|]. split; [reflexivity|]. split; [discriminate|].
  exists [], []. split; [reflexivity|]. split; [apply holds_new|reflexivity].
Qed.

(** What a consumer gets is a first part of the sorted history of the calls so far. *)
Lemma consumes_history o t s l x : valid t -> consumes (open t o) s = (l, x) ->
  let '(h, sc, r) := calls (no_extend o) t (fills s) in
  (exists rest, isort h = l ++ rest) /\
  (exists sc', good (no_extend o) t h sc' /\ (r <> Ok tt -> sc_state sc' <> SDone)) /\
  match r with
  | Ok _ => exists r', x = Ok r' /\ stage (no_extend o) t (fills s) l r' /\ good (no_extend o) t h sc
  | Err e => x = Err (RScan e) /\ e <> Extend
  | Panic => x = Panic /\ ~ safe (no_extend o) t
  | Fuel => False
  end.
Proof.
  intros V E. assert (NE : extendable (no_extend o) = false) by reflexivity.
  pose proof (consumes_stage _ t NE V s 0 [] _ (stage_start o t)) as C. rewrite E in C. cbn [plus app] in C.
  destruct (calls_good _ t (fills s) NE V) as [G G'].
  destruct (calls (no_extend o) t (fills s)) as [[h sc] [a|e| |]] eqn:EC; cbn [fst snd] in G'.
  - destruct C as (r' & -> & ST). split.
    + destruct ST as (_ & _ & _ & h' & rest & E' & _ & HS).
      rewrite EC in E'. injection E' as -> _ _. eauto.
    + split; [exact G'|]. eauto.
  - destruct C as [-> P]. auto.
  - destruct C as [-> P]. auto.
  - destruct C.
Qed.
