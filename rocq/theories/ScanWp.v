(** A calculus for the methods of the scanner: what they read, what they queue and in
    which state they end, whatever the queue holds. *)
From Verif Require Export ScanSpec.
From Coq Require Import Lia ZifyBool ZifyN ZifyNat.
Open Scope nat_scope.

Section Wp.
  Variable o : flags.
  Variable pan : Prop.

  Definition outcome {A} (P : list entry -> str -> scanner -> A -> Prop)
    (X : list entry -> str -> scanner -> Prop)
    (es : list entry) (b : str) (sc : scanner) (r : sres A) : Prop :=
    match r with
    | Ok a => P es b sc a
    | Err e => e = Extend -> extendable o = true /\ X es b sc
    | Panic => pan
    | Fuel => False
    end.

  Definition wp {A} (m : M A) (b : str) (sc : scanner)
    (P : list entry -> str -> scanner -> A -> Prop)
    (X : list entry -> str -> scanner -> Prop) : Prop :=
    exists es b' sc' r, (forall q, m (mkMs b sc q) = (mkMs b' sc' (pushes es q), r)) /\
      outcome P X es b' sc' r.

  Lemma wp_imp {A} (m : M A) b sc (P P' : list entry -> str -> scanner -> A -> Prop)
    (X X' : list entry -> str -> scanner -> Prop) :
    wp m b sc P X -> (forall es b sc a, P es b sc a -> P' es b sc a) ->
    (forall es b sc, X es b sc -> X' es b sc) -> wp m b sc P' X'.
  Proof.
    intros (es & b' & sc' & r & E & H) HP HX. exists es, b', sc', r. split; [exact E|].
    destruct r as [a|e| |]; cbn in *; auto. intros Q. destruct (H Q). auto.
  Qed.

  Lemma wp_bind {A B} (m : M A) (k : A -> M B) b sc P X P' (X' : list entry -> str -> scanner -> Prop) :
    wp m b sc P X -> (forall es b sc, X es b sc -> X' es b sc) ->
    (forall es b1 sc1 a, P es b1 sc1 a ->
       wp (k a) b1 sc1 (fun fs => P' (es ++ fs)) (fun fs => X' (es ++ fs))) ->
    wp (mbind m k) b sc P' X'.
  Proof.
    intros (es & b1 & sc1 & r & E & H) HX HK. destruct r as [a|e| |]; cbn in H.
    - destruct (HK _ _ _ _ H) as (fs & b2 & sc2 & r2 & E2 & H2).
      exists (es ++ fs), b2, sc2, r2. split.
      + intros q. unfold mbind. rewrite E, E2, pushes_app. reflexivity.
      + destruct r2; cbn in *; auto.
    - exists es, b1, sc1, (Err e). split; [intros q; unfold mbind; rewrite E; reflexivity|].
      cbn. intros Q. destruct (H Q). auto.
    - exists es, b1, sc1, Panic. split; [intros q; unfold mbind; rewrite E; reflexivity|exact H].
    - destruct H.
  Qed.

  Lemma wp_ext {A} (m m' : M A) b sc P X : (forall s, m' s = m s) -> wp m b sc P X -> wp m' b sc P X.
  Proof.
    intros H (es & b' & sc' & r & E & K). exists es, b', sc', r. split; [|exact K].
    intros q. rewrite H. apply E.
  Qed.

  Lemma wp_assoc {A B C} (m : M A) (f : A -> M B) (k : B -> M C) b sc P X :
    wp (mbind m (fun a => mbind (f a) k)) b sc P X -> wp (mbind (mbind m f) k) b sc P X.
  Proof.
    apply wp_ext. intros s. unfold mbind. destruct (m s) as [s' [a|e| |]]; reflexivity.
  Qed.

  (** Primitive actions. *)
  Lemma wp_ret {A} (a : A) b sc (P : list entry -> str -> scanner -> A -> Prop) X :
    P [] b sc a -> wp (mret a) b sc P X.
  Proof. intros H. exists [], b, sc, (Ok a). split; [reflexivity|exact H]. Qed.
  Lemma wp_ret_bind {A B} (a : A) (k : A -> M B) b sc P X :
    wp (k a) b sc P X -> wp (mbind (mret a) k) b sc P X.
  Proof. apply wp_ext. reflexivity. Qed.
  Lemma wp_ok_bind {A B} (a : A) (k : A -> M B) b sc P X :
    wp (k a) b sc P X -> wp (mbind (mlift (Ok a)) k) b sc P X.
  Proof. apply wp_ext. reflexivity. Qed.
  Lemma wp_get_sc {B} (k : scanner -> M B) b sc P X :
    wp (k sc) b sc P X -> wp (mbind get_sc k) b sc P X.
  Proof. intros (es & b' & sc' & r & E & H). exists es, b', sc', r. split; [exact E|exact H]. Qed.
  Lemma wp_get_buf {B} (k : str -> M B) b sc P X :
    wp (k b) b sc P X -> wp (mbind get_buf k) b sc P X.
  Proof. intros (es & b' & sc' & r & E & H). exists es, b', sc', r. split; [exact E|exact H]. Qed.
  Lemma wp_put_buf {B} b0 (k : unit -> M B) b sc P X :
    wp (k tt) b0 sc P X -> wp (mbind (put_buf b0) k) b sc P X.
  Proof. intros (es & b' & sc' & r & E & H). exists es, b', sc', r. split; [exact E|exact H]. Qed.
  Lemma wp_upd {B} f (k : unit -> M B) b sc P X :
    wp (k tt) b (f sc) P X -> wp (mbind (upd f) k) b sc P X.
  Proof. intros (es & b' & sc' & r & E & H). exists es, b', sc', r. split; [exact E|exact H]. Qed.
  Lemma wp_upd_last f b sc (P : list entry -> str -> scanner -> unit -> Prop) X :
    P [] b (f sc) tt -> wp (upd f) b sc P X.
  Proof. intros H. exists [], b, (f sc), (Ok tt). split; [reflexivity|exact H]. Qed.
  Lemma wp_enqueue {B} t n (k : unit -> M B) b sc P X :
    wp (k tt) b sc (fun es => P (mkEntry t n :: es)) (fun es => X (mkEntry t n :: es)) ->
    wp (mbind (enqueue t n) k) b sc P X.
  Proof.
    intros (es & b' & sc' & r & E & H). exists (mkEntry t n :: es), b', sc', r.
    split; [intros q; exact (E _)|]. destruct r; exact H.
  Qed.
  Lemma wp_enqueue_last t n b sc (P : list entry -> str -> scanner -> unit -> Prop) X :
    P [mkEntry t n] b sc tt -> wp (enqueue t n) b sc P X.
  Proof. intros H. exists [mkEntry t n], b, sc, (Ok tt). split; [reflexivity|exact H]. Qed.
  Lemma wp_here {B} t (k : unit -> M B) b sc P X :
    wp (k tt) b sc (fun es => P (mkEntry t (sread (sc_st sc)) :: es))
      (fun es => X (mkEntry t (sread (sc_st sc)) :: es)) ->
    wp (mbind (enqueue_here t) k) b sc P X.
  Proof. intros H. unfold enqueue_here. apply wp_assoc, wp_get_sc, wp_enqueue, H. Qed.
  Lemma wp_here_last t b sc (P : list entry -> str -> scanner -> unit -> Prop) X :
    P [mkEntry t (sread (sc_st sc))] b sc tt -> wp (enqueue_here t) b sc P X.
  Proof. intros H. unfold enqueue_here. apply wp_get_sc, wp_enqueue_last, H. Qed.
  Lemma wp_ends {B} n mark (k : unit -> M B) : forall b sc P X,
    wp (k tt) b sc (fun es => P (ends n mark ++ es)) (fun es => X (ends n mark ++ es)) ->
    wp (mbind (enqueue_ends n mark) k) b sc P X.
  Proof.
    induction n as [|n IH]; intros b sc P X H; [apply wp_ret_bind, H|].
    cbn [enqueue_ends]. apply wp_assoc, wp_enqueue, IH, H.
  Qed.
  Lemma wp_err {A} e b sc (P : list entry -> str -> scanner -> A -> Prop) X :
    e <> Extend -> wp (mlift (Err e)) b sc P X.
  Proof. intros H. exists [], b, sc, (Err e). split; [reflexivity|]. intros Q. contradiction. Qed.
  Lemma wp_err_bind {A B} e (k : A -> M B) b sc P X :
    e <> Extend -> wp (mbind (mlift (Err e)) k) b sc P X.
  Proof. intros H. exists [], b, sc, (Err e). split; [reflexivity|]. intros Q. contradiction. Qed.

  (** A leaf scanner. *)
  Lemma wp_leaf {A B} (r : sres A) (k : A -> M B) b sc (L : A -> Prop) p P (X : list entry -> str -> scanner -> Prop) :
    leaf o L p r -> (p -> pan) -> X [] b sc ->
    (forall a, r = Ok a -> L a -> wp (k a) b sc P X) -> wp (mbind (mlift r) k) b sc P X.
  Proof.
    intros H HP HX HK. destruct r as [a|e| |]; cbn in H.
    - destruct (HK a eq_refl H) as (es & b' & sc' & r & E & K). exists es, b', sc', r. split; [exact E|exact K].
    - exists [], b, sc, (Err e). split; [reflexivity|]. intros Q. auto.
    - exists [], b, sc, Panic. split; [reflexivity|exact (HP H)].
    - destruct H.
  Qed.

  Lemma wp_skip {B} n (k : unit -> M B) b sc P X : is_boundary b n = true ->
    wp (k tt) (skipn n b) sc P X -> wp (mbind (advance n) k) b sc P X.
  Proof.
    intros BD H. unfold advance. apply wp_assoc, wp_get_buf, wp_assoc.
    unfold skip. rewrite BD. apply wp_ok_bind, wp_put_buf, H.
  Qed.
  Lemma wp_advance_st {B} n (k : unit -> M B) b sc P X : is_boundary b n = true ->
    wp (k tt) (skipn n b) (set_st (supd (sc_st sc) n 0 n) sc) P X ->
    wp (mbind (advance_st n) k) b sc P X.
  Proof.
    intros BD H. unfold advance_st. apply wp_assoc, wp_skip; [exact BD|]. apply wp_upd, H.
  Qed.
  Lemma wp_add_st {B} d (k : unit -> M B) b sc P X :
    wp (k tt) b (set_st (sadd (sc_st sc) d) sc) P X -> wp (mbind (add_st d) k) b sc P X.
  Proof. apply wp_upd. Qed.

  (** Methods. *)
  Lemma pop_indents_spec col : forall l i i' l' n, pop_indents l i col = (i', l', n) ->
    n <= List.length l /\ l' = skipn n l /\ (col = None -> l' = []).
  Proof.
    induction l as [|e l IH]; intros i i' l' n; cbn [pop_indents].
    - destruct (indent_gt i col); intros [= <- <- <-]; cbn; auto.
    - destruct (indent_gt i col) eqn:G.
      + destruct (pop_indents l (ie_indent e) col) as [[i2 l2] n2] eqn:E. intros [= <- <- <-].
        destruct (IH _ _ _ _ E) as (A & B & C). cbn. repeat split; auto. lia.
      + intros [= <- <- <-]. repeat split; [lia|]. intros ->. discriminate.
  Qed.

  Lemma wp_unroll {B} col (k : unit -> M B) b sc P X :
    (forall n c, closes (sc_cxt sc) n c ->
       (is_block (sc_cxt sc) = true -> col = None -> c_indents c = []) ->
       (indent_decrement (sc_cxt sc) col = (c, n)) ->
       wp (k tt) b (set_cxt c sc) (fun es => P (ends n (sread (sc_st sc)) ++ es))
         (fun es => X (ends n (sread (sc_st sc)) ++ es))) ->
    wp (mbind (unroll_indent col) k) b sc P X.
  Proof.
    intros H. unfold unroll_indent. apply wp_assoc, wp_get_sc.
    destruct (is_block (sc_cxt sc)) eqn:BL.
    - unfold indent_decrement. rewrite BL.
      destruct (pop_indents _ _ _) as [[i l] n] eqn:E. destruct (pop_indents_spec _ _ _ _ _ _ E) as (A & C & D).
      apply wp_assoc, wp_upd, wp_ends. apply H.
      + repeat split; auto.
      + auto.
      + unfold indent_decrement. rewrite BL, E. reflexivity.
    - apply wp_ret_bind. assert (S : set_cxt (sc_cxt sc) sc = sc) by (destruct sc; reflexivity).
      specialize (H 0 (sc_cxt sc)). rewrite S in H. apply H.
      + repeat split; auto. lia.
      + discriminate.
      + unfold indent_decrement. rewrite BL. reflexivity.
  Qed.

  Lemma wp_remove_key {B} (k : unit -> M B) b sc P X :
    (match sc_key sc with Some s => kp_required (k_possible s) = false | None => True end ->
     wp (k tt) b (set_key None sc) P X) ->
    wp (mbind remove_saved_key k) b sc P X.
  Proof.
    intros H. unfold remove_saved_key. apply wp_assoc, wp_get_sc.
    destruct (sc_key sc) as [s|] eqn:E.
    - apply wp_assoc, wp_upd. destruct (kp_required (k_possible s)); [apply wp_err_bind; discriminate|].
      apply wp_ret_bind. auto.
    - apply wp_ret_bind. assert (S : set_key None sc = sc) by (rewrite <- E; destruct sc; reflexivity).
      rewrite S in H. auto.
  Qed.

  Lemma wp_save_key {B} req (k : unit -> M B) b sc P X :
    (forall key, key = sc_key sc \/ (exists r, key = Some (new_key (sc_st sc) r)) ->
       wp (k tt) b (set_key key sc) P X) ->
    wp (mbind (save_key req) k) b sc P X.
  Proof.
    intros H. unfold save_key. apply wp_assoc, wp_get_sc. destruct (sc_ska sc).
    - apply wp_assoc, wp_remove_key. intros _. apply wp_upd.
      replace (set_key _ (set_key None sc)) with
        (set_key (Some (new_key (sc_st sc) (req || is_block (sc_cxt sc) && indent_eqb (cur_indent (sc_cxt sc)) (scol (sc_st sc))))) sc)
        by (destruct sc; reflexivity).
      apply H. eauto.
    - apply wp_ret_bind. assert (S : set_key (sc_key sc) sc = sc) by (destruct sc; reflexivity).
      specialize (H (sc_key sc)). rewrite S in H. auto.
  Qed.

  Lemma wp_roll {B} st map (k : unit -> M B) b sc P X :
    (forall c pre, roll (sc_cxt sc) st map = (c, pre) ->
       wp (k tt) b (set_cxt c sc) (fun es => P (pre ++ es)) (fun es => X (pre ++ es))) ->
    wp (mbind (roll_indent (sread st) (slines st) (scol st) map) k) b sc P X.
  Proof.
    intros H. unfold roll_indent. apply wp_assoc, wp_get_sc. unfold roll in H.
    assert (S : set_cxt (sc_cxt sc) sc = sc) by (destruct sc; reflexivity).
    destruct (is_block (sc_cxt sc)).
    - destruct (indent_ltb _ _).
      + apply wp_assoc, wp_upd, wp_enqueue. apply (H _ _ eq_refl).
      + destruct (negb map && indent_eqb (cur_indent (sc_cxt sc)) (scol st)).
        * destruct (c_indents (sc_cxt sc)) as [|e l].
          -- apply wp_ret_bind. specialize (H _ _ eq_refl). rewrite S in H. exact H.
          -- destruct (ie_map e).
             ++ apply wp_assoc, wp_upd, wp_enqueue. apply (H _ _ eq_refl).
             ++ apply wp_ret_bind. specialize (H _ _ eq_refl). rewrite S in H. exact H.
        * apply wp_ret_bind. specialize (H _ _ eq_refl). rewrite S in H. exact H.
    - apply wp_ret_bind. specialize (H _ _ eq_refl). rewrite S in H. exact H.
  Qed.
End Wp.
