(** A text cut in two: what the scanning functions do on the first part when they
    do not ask for more text, they do on the whole text. *)
From Verif Require Import QuotedFacts FlowFacts Contract.
From Coq Require Import Lia ZifyBool ZifyN ZifyNat.
Open Scope nat_scope.

(** Both parts are well formed. *)
Definition cut (t a : str) : Prop := valid a /\ valid t.

(** Agreement of a run on the first part and a run on the whole text, up to
    requests for more text and to results [K] that force such a request. *)
Definition simk {A B} (K : A -> Prop) (R : A -> B -> Prop) (x : sres A) (y : sres B) : Prop :=
  match x with
  | Ok a => K a \/ exists b, y = Ok b /\ R a b
  | Err Extend => True
  | Err e => y = Err e
  | Panic => y = Panic
  | Fuel => True
  end.
Definition sim {A B} (R : A -> B -> Prop) (x : sres A) (y : sres B) : Prop :=
  simk (fun _ => False) R x y.

Lemma sim_ok {A B} (R : A -> B -> Prop) a b : R a b -> sim R (Ok a) (Ok b).
Proof. intros H. right. eauto. Qed.
Lemma simk_ok {A B} K (R : A -> B -> Prop) a b : R a b -> simk K R (Ok a) (Ok b).
Proof. intros H. right. eauto. Qed.
Lemma sim_err {A B} (R : A -> B -> Prop) e : sim R (Err e) (Err e).
Proof. destruct e; reflexivity. Qed.
Lemma simk_err {A B} K (R : A -> B -> Prop) e : simk K R (Err e) (Err e).
Proof. destruct e; reflexivity. Qed.

Lemma simk_bindk {A A' B B'} (K : A -> Prop) (K' : B -> Prop) (R : A -> A' -> Prop) (Q : B -> B' -> Prop) x y k k' :
  simk K R x y -> (forall a, K a -> k a = Err Extend) ->
  (forall a b, R a b -> simk K' Q (k a) (k' b)) -> simk K' Q (bind x k) (bind y k').
Proof.
  intros S H1 H2. destruct x as [a|e| |]; cbn in S |- *; auto.
  - destruct S as [S|(b & -> & S)]; [rewrite (H1 _ S); exact Logic.I|]. cbn. auto.
  - destruct e; cbn in *; subst; auto.
  - subst. reflexivity.
Qed.
Lemma simk_bind {A A' B B'} (K' : B -> Prop) (R : A -> A' -> Prop) (Q : B -> B' -> Prop) x y k k' :
  sim R x y -> (forall a b, R a b -> simk K' Q (k a) (k' b)) -> simk K' Q (bind x k) (bind y k').
Proof. intros S H. eapply simk_bindk; [exact S| |exact H]. cbn. tauto. Qed.
Lemma sim_bind {A A' B B'} (R : A -> A' -> Prop) (Q : B -> B' -> Prop) x y k k' :
  sim R x y -> (forall a b, R a b -> sim Q (k a) (k' b)) -> sim Q (bind x k) (bind y k').
Proof. apply simk_bind. Qed.
Lemma simk_bindg {A A' B B'} (K : A -> Prop) (K' : B -> Prop) (R : A -> A' -> Prop) (Q : B -> B' -> Prop) x y k k' :
  simk K R x y -> (forall a z, K a -> simk K' Q (k a) z) ->
  (forall a b, R a b -> simk K' Q (k a) (k' b)) -> simk K' Q (bind x k) (bind y k').
Proof.
  intros S H1 H2. destruct x as [a|e| |]; cbn in S |- *; auto.
  - destruct S as [S|(b & -> & S)]; [apply H1, S|]. cbn. auto.
  - destruct e; cbn in *; subst; auto.
  - subst. reflexivity.
Qed.
Lemma simk_impl {A B} (K K' : A -> Prop) (R Q : A -> B -> Prop) x y : simk K R x y ->
  (forall a, K a -> K' a) -> (forall a b, R a b -> Q a b) -> simk K' Q x y.
Proof.
  intros S H1 H2. destruct x as [a|e| |]; cbn in *; auto.
  destruct S as [S|(b & -> & S)]; [left; auto|right; eauto].
Qed.
Lemma sim_impl {A B} (R Q : A -> B -> Prop) x y : sim R x y ->
  (forall a b, R a b -> Q a b) -> sim Q x y.
Proof. intros S H. eapply simk_impl; eauto. Qed.

Definition stepk {P R} (K : R -> Prop) (x : step P R) : Prop :=
  match x with Next _ => False | Done r => K r end.
Definition steps {P P' R R'} (I : P -> P' -> Prop) (Q : R -> R' -> Prop) (x : step P R) (y : step P' R') : Prop :=
  match x, y with Next a, Next b => I a b | Done a, Done b => Q a b | _, _ => False end.

(** [N]: states from which the loop asks for more text. *)
Lemma simk_loopk {P P' R R'} (N : P -> Prop) (K : R -> Prop) (I : P -> P' -> Prop) (Q : R -> R' -> Prop) body body' :
  (forall p p', I p p' -> simk (fun x => match x with Next p => N p | Done r => K r end) (steps I Q) (body p) (body' p')) ->
  (forall p, N p -> body p = Err Extend) ->
  forall f f' p p', f <= f' -> I p p' -> simk K Q (loop f body p) (loop f' body' p').
Proof.
  intros H HN f. induction f as [|f IH]; intros f' p p' L HI; cbn [loop]; [exact Logic.I|].
  destruct f' as [|f']; [lia|]. cbn [loop]. specialize (H _ _ HI).
  destruct (body p) as [[s|r]|e| |]; cbn in H |- *; auto.
  - destruct H as [H|(y & -> & H)].
    + destruct f as [|f]; cbn [loop]; [exact Logic.I|]. rewrite (HN _ H). exact Logic.I.
    + destruct y as [s'|r']; [|destruct H]. apply IH; [lia|exact H].
  - destruct H as [H|(y & -> & H)]; [left; exact H|]. destruct y as [s'|r']; [destruct H|]. right. eauto.
  - destruct e; cbn in *; try rewrite H; auto.
  - rewrite H. reflexivity.
Qed.
Lemma simk_loop {P P' R R'} (K : R -> Prop) (I : P -> P' -> Prop) (Q : R -> R' -> Prop) body body' :
  (forall p p', I p p' -> simk (stepk K) (steps I Q) (body p) (body' p')) ->
  forall f f' p p', f <= f' -> I p p' -> simk K Q (loop f body p) (loop f' body' p').
Proof.
  intros H. apply (simk_loopk (fun _ => False)); [|tauto]. intros p p' HI. eapply simk_impl; [apply H, HI| |auto].
  intros [x|x]; cbn; auto.
Qed.
Lemma sim_loop {P P' R R'} (I : P -> P' -> Prop) (Q : R -> R' -> Prop) body body' :
  (forall p p', I p p' -> sim (steps I Q) (body p) (body' p')) ->
  forall f f' p p', f <= f' -> I p p' -> sim Q (loop f body p) (loop f' body' p').
Proof.
  intros H. apply simk_loop. intros p p' HI. eapply simk_impl; [apply H, HI|cbn; tauto|auto].
Qed.

(** ** Looking at the text *)
Lemma at_is_app (a t : str) i c : i < List.length a -> at_is (a ++ t) i c = at_is a i c.
Proof. intros H. unfold at_is. rewrite nth_error_app1 by exact H. reflexivity. Qed.
Lemma width_at_app (a t : str) i : i < List.length a -> width_at (a ++ t) i = width_at a i.
Proof. intros H. unfold width_at. rewrite nth_error_app1 by exact H. reflexivity. Qed.
Lemma flow_ind_app (a t : str) i : i < List.length a -> is_flow_ind_at (a ++ t) i = is_flow_ind_at a i.
Proof. intros H. unfold is_flow_ind_at. rewrite nth_error_app1 by exact H. reflexivity. Qed.
Lemma is_blank_app (a t : str) : a <> [] -> is_blank (a ++ t) = is_blank a.
Proof. destruct a; [congruence|reflexivity]. Qed.
Lemma is_empty_app (a t : str) : a <> [] -> is_empty (a ++ t) = is_empty a.
Proof. destruct a; [congruence|reflexivity]. Qed.
Lemma starts_with_app (p : str) : forall (a t : str), List.length p <= List.length a ->
  starts_with (a ++ t) p = starts_with a p.
Proof.
  induction p as [|y p IH]; intros a t H.
  - destruct a, t; reflexivity.
  - destruct a as [|x a]; cbn [List.length] in H; [lia|].
    cbn. rewrite IH by lia. reflexivity.
Qed.
Lemma skipn_app_le (a t : str) n : n <= List.length a -> skipn n (a ++ t) = skipn n a ++ t.
Proof. intros H. rewrite skipn_app. replace (n - List.length a) with 0 by lia. reflexivity. Qed.
Lemma firstn_app_le (a t : str) n : n <= List.length a -> firstn n (a ++ t) = firstn n a.
Proof. intros H. rewrite firstn_app. replace (n - List.length a) with 0 by lia. cbn. apply app_nil_r. Qed.

Lemma valid_head c r : valid (c :: r) -> is_cont c = false.
Proof.
  unfold valid, valid_utf8. cbn [List.length valid_fuel]. unfold utf8_char, is_cont, rng.
  destruct (c <? 128)%N eqn:A; [lia|]. intros H.
  destruct ((128 <=? c)%N && (c <=? 191)%N) eqn:B; [|reflexivity].
  replace ((194 <=? c)%N && (c <=? 223)%N) with false in H by lia.
  replace ((224 <=? c)%N && (c <=? 239)%N) with false in H by lia.
  replace ((240 <=? c)%N && (c <=? 244)%N) with false in H by lia. discriminate.
Qed.

Lemma boundary_grow (a t : str) n : valid t -> n <= List.length a -> is_boundary (a ++ t) n = is_boundary a n.
Proof.
  intros V L. destruct n as [|n]; [reflexivity|]. unfold is_boundary.
  destruct (Nat.eq_dec (S n) (List.length a)) as [E|E].
  - rewrite nth_error_app2 by lia. replace (S n - List.length a) with 0 by lia.
    assert (nth_error a (S n) = None) as -> by (apply nth_error_None; lia).
    destruct t as [|c t]; cbn [nth_error].
    + rewrite app_nil_r. reflexivity.
    + rewrite (valid_head _ _ V). lia.
  - rewrite nth_error_app1 by lia.
    destruct (nth_error a (S n)) eqn:F; [reflexivity|]. apply nth_error_None in F. lia.
Qed.

Lemma cut_valid t a : cut t a -> valid a. Proof. unfold cut. tauto. Qed.
Lemma cut_skipn t a n : cut t a -> is_boundary a n = true -> cut t (skipn n a).
Proof.
  intros (V & W) B. split; [apply valid_skipn; assumption|exact W].
Qed.

(** The cut may be inside a CR LF pair. *)
Lemma break_amt_app t a : cut t a -> a <> [] -> a <> [13%N] -> break_amt (a ++ t) = break_amt a.
Proof.
  intros (V & _) N CR. destruct a as [|x a]; [congruence|]. cbn [app break_amt].
  destruct (x =? 13)%N eqn:E13.
  { destruct a as [|y a]; [|reflexivity]. apply N.eqb_eq in E13. congruence. }
  destruct (x =? 10)%N eqn:E10; [reflexivity|].
  destruct (x =? 194)%N eqn:E194.
  { destruct a as [|y a]; [|reflexivity]. apply N.eqb_eq in E194. subst. discriminate V. }
  destruct (x =? 226)%N eqn:E226; [|reflexivity].
  apply N.eqb_eq in E226. subst. destruct a as [|y [|z a]]; [discriminate V| |reflexivity].
  exfalso. clear - V. unfold valid, valid_utf8 in V. cbn in V. discriminate V.
Qed.
Lemma is_break_app t a : cut t a -> a <> [] -> is_break (a ++ t) = is_break a.
Proof.
  intros C N. unfold is_break. destruct (list_eq_dec N.eq_dec a [13%N]) as [->|CR].
  - cbn. destruct (at_is t 0 10); reflexivity.
  - rewrite break_amt_app by assumption. reflexivity.
Qed.

Lemma break_cont c (r : str) : is_cont c = true -> break_amt (c :: r) = 0.
Proof.
  unfold is_cont, break_amt. intros H.
  replace (c =? 13)%N with false by lia. replace (c =? 10)%N with false by lia.
  replace (c =? 194)%N with false by lia. replace (c =? 226)%N with false by lia. reflexivity.
Qed.
Lemma break_at_app t a i : cut t a -> i < List.length a ->
  is_break (skipn i (a ++ t)) = is_break (skipn i a).
Proof.
  intros C L. rewrite skipn_app_le by lia.
  destruct (is_boundary a i) eqn:B.
  - apply is_break_app; [apply cut_skipn; assumption|].
    intros E. apply (f_equal (@List.length N)) in E. rewrite skipn_length in E. cbn in E. lia.
  - destruct (nth_error a i) as [c|] eqn:N; [|apply nth_error_None in N; lia].
    assert (is_cont c = true) as K.
    { destruct i; [discriminate B|]. cbn [is_boundary] in B. rewrite N in B. destruct (is_cont c); [reflexivity|discriminate]. }
    pose proof (nth_error_split _ _ N) as (l1 & l2 & -> & <-).
    rewrite skipn_app, skipn_all, Nat.sub_diag. cbn [skipn app].
    unfold is_break. rewrite !break_cont by exact K. reflexivity.
Qed.
Lemma is_ws_at_app t a i : cut t a -> i < List.length a -> is_ws_at (a ++ t) i = is_ws_at a i.
Proof.
  intros C L. unfold is_ws_at, is_ws. rewrite break_at_app by assumption.
  rewrite skipn_app_le by lia. rewrite is_blank_app; [reflexivity|].
  intros E. apply (f_equal (@List.length N)) in E. rewrite skipn_length in E. cbn in E. lia.
Qed.
Lemma is_wsZ_at_app t a i : cut t a -> i < List.length a -> is_wsZ_at (a ++ t) i = is_wsZ_at a i.
Proof.
  intros C L. unfold is_wsZ_at, is_wsZ. rewrite break_at_app by assumption.
  assert (skipn i a <> []) by (intros E; apply (f_equal (@List.length N)) in E; rewrite skipn_length in E; cbn in E; lia).
  rewrite skipn_app_le by lia. rewrite is_blank_app, is_empty_app by assumption. reflexivity.
Qed.
Lemma is_wsZ_app t a : cut t a -> a <> [] -> is_wsZ (a ++ t) = is_wsZ a.
Proof.
  intros C N. unfold is_wsZ. rewrite is_break_app, is_blank_app, is_empty_app by assumption. reflexivity.
Qed.
Lemma is_ws_app t a : cut t a -> a <> [] -> is_ws (a ++ t) = is_ws a.
Proof. intros C N. unfold is_ws. rewrite is_break_app, is_blank_app by assumption. reflexivity. Qed.
Lemma is_breakZ_app t a : cut t a -> a <> [] -> is_breakZ (a ++ t) = is_breakZ a.
Proof. intros C N. unfold is_breakZ. rewrite is_break_app, is_empty_app by assumption. reflexivity. Qed.
Lemma doc_app t a col : cut t a -> 4 <= List.length a -> is_doc_indicator (a ++ t) col = is_doc_indicator a col.
Proof.
  intros C L. unfold is_doc_indicator. rewrite is_wsZ_at_app by (auto; lia).
  rewrite !starts_with_app by (cbn; lia). reflexivity.
Qed.
Lemma plain_end_app t a flow : cut t a -> 2 <= List.length a -> plain_end flow (a ++ t) = plain_end flow a.
Proof.
  intros C L. unfold plain_end. rewrite at_is_app, is_wsZ_at_app, flow_ind_app by (auto; lia). reflexivity.
Qed.

Lemma consumed_grow (a b t : str) : consumed (a ++ t) (b ++ t) = consumed a b.
Proof. unfold consumed. rewrite !app_length. lia. Qed.
Lemma fuel_app (a t : str) : fuel_of a <= fuel_of (a ++ t).
Proof. unfold fuel_of. rewrite app_length. lia. Qed.
Lemma long_ne (a : str) n : 0 < n -> n <= List.length a -> a <> [].
Proof. intros H L ->. cbn in L. lia. Qed.

Section Prims.
  Variables (t : str) (o o' : flags).
  Hypothesis E : extendable o = true.

  Lemma cache_at_sim n : forall (a : str) off,
    sim (fun _ _ => n = 0 \/ off + n <= List.length a) (cache_at o a off n) (cache_at o' (a ++ t) off n).
  Proof.
    induction n as [|n IH]; intros a off; cbn [cache_at]; [apply sim_ok; auto|].
    unfold width_at. destruct (nth_error a off) as [c|] eqn:N.
    - assert (off < List.length a) as L by (apply nth_error_Some; congruence).
      rewrite nth_error_app1, N by exact L.
      destruct (width_byte c) as [|w]; [rewrite E; exact Logic.I|].
      eapply sim_impl; [apply IH|]. cbn beta. lia.
    - rewrite E. exact Logic.I.
  Qed.
  Lemma cache_sim (a : str) n : sim (fun _ _ => n <= List.length a) (cache o a n) (cache o' (a ++ t) n).
  Proof. eapply sim_impl; [apply cache_at_sim|]. cbn beta. lia. Qed.
  Lemma cache_nil n : cache o [] (S n) = Err Extend.
  Proof. unfold cache. cbn. rewrite E. reflexivity. Qed.

End Prims.

Section Moves.
  Variable t : str.

  Lemma skip_sim (a : str) n : cut t a -> n <= List.length a ->
    sim (fun b b' => b' = b ++ t /\ b = skipn n a /\ cut t b /\ List.length b + n = List.length a) (skip a n) (skip (a ++ t) n).
  Proof.
    intros C L. unfold skip. rewrite boundary_grow by (try apply C; exact L).
    destruct (is_boundary a n) eqn:B; [|reflexivity]. apply sim_ok.
    rewrite skipn_app_le by exact L.
    refine (conj eq_refl (conj eq_refl (conj (cut_skipn _ _ _ C B) _))). rewrite skipn_length. lia.
  Qed.
  Lemma slice_sim (a : str) i j : cut t a -> j <= List.length a ->
    sim eq (slice a i j) (slice (a ++ t) i j).
  Proof.
    intros C L. unfold slice. destruct (Nat.leb i j) eqn:LE; [|reflexivity].
    rewrite !boundary_grow by (try apply C; lia).
    destruct (true && is_boundary a i && is_boundary a j); [|reflexivity]. apply sim_ok.
    rewrite skipn_app_le by lia. rewrite firstn_app_le; [reflexivity|]. rewrite skipn_length. lia.
  Qed.

  (** A text within a text of length [L], at the place of the scan. *)
  Definition near (K L : nat) (b : str) (st : stats) : Prop :=
    cut t b /\ List.length b <= L /\ sread st + List.length b = K.
  Definition grown (K L : nat) (p p' : str * stats) : Prop :=
    p' = (fst p ++ t, snd p) /\ near K L (fst p) (snd p).

  Lemma adv_sim K L b st n : near K L b st -> n <= List.length b ->
    sim (fun p p' => grown K L p p' /\ fst p = skipn n b /\ List.length (fst p) + n = List.length b)
      (adv b st n) (adv (b ++ t) st n).
  Proof.
    intros (C & LB & RB) L'. unfold adv. eapply sim_bind; [apply skip_sim; assumption|].
    intros r r' (-> & Er & Cr & Lr). apply sim_ok. unfold grown, near. cbn. repeat split; auto; try apply Cr; lia.
  Qed.
  Lemma adv_line_sim2 K L b st : near K L b st -> b <> [] ->
    sim (fun p p' => scol (snd p) = 0 /\ scol (snd p') = 0 /\ sread (snd p) + List.length (fst p) = K /\ sread (snd p) <= sread (snd p') /\
        (grown K L p p' /\ List.length (fst p) + break_amt b = List.length b \/ fst p = [] /\ b = [13%N]))
      (adv_line b st) (adv_line (b ++ t) st).
  Proof.
    intros (C & LB & RB) N. unfold adv_line. destruct (list_eq_dec N.eq_dec b [13%N]) as [->|CR].
    - cbn [app break_amt]. rewrite N.eqb_refl. change (at_is [] 0 10) with false. cbv iota.
      change (skip [13%N] 1) with (@Ok scan_error str []). cbn [bind].
      destruct (at_is t 0 10) eqn:T10.
      + destruct t as [|c r]; [discriminate|]. assert (skip (13%N :: c :: r) 2 = @Ok scan_error str r) as ->.
        { unfold skip. assert (is_boundary (13%N :: c :: r) 2 = true) as ->; [|reflexivity].
          cbn [at_is nth_error] in T10. apply N.eqb_eq in T10. subst c. destruct C as (_ & V).
          unfold is_boundary. cbn [nth_error List.length]. destruct r as [|y r]; [reflexivity|].
          apply (valid_tail [10%N] (y :: r)) in V; [|reflexivity]. rewrite (valid_head _ _ V). reflexivity. }
        apply sim_ok. cbn in *. repeat split; auto; lia.
      + destruct t as [|c r]; [change (skip ([13%N] ++ []) 1) with (@Ok scan_error str []); apply sim_ok; cbn in *; repeat split; auto; lia|].
        assert (skip (13%N :: c :: r) 1 = @Ok scan_error str (c :: r)) as ->.
        { unfold skip. assert (is_boundary (13%N :: c :: r) 1 = true) as ->; [|reflexivity].
          unfold is_boundary. cbn [nth_error]. rewrite (valid_head _ _ (proj2 C)). reflexivity. }
        apply sim_ok. cbn in *. repeat split; auto; lia.
    - rewrite break_amt_app by assumption.
      eapply sim_bind; [apply skip_sim; [assumption|apply break_amt_le]|].
      intros r r' (-> & Er & Cr & Lr). apply sim_ok. unfold grown, near. cbn [fst snd supd sread scol].
      split; [reflexivity|]. split; [reflexivity|]. split; [lia|]. split; [lia|]. left. repeat split; auto; try apply Cr; lia.
  Qed.
  Lemma adv_line_sim K L b st : near K L b st -> b <> [] ->
    simk (fun p => fst p = []) (fun p p' => grown K L p p') (adv_line b st) (adv_line (b ++ t) st).
  Proof.
    intros H N. pose proof (adv_line_sim2 K L b st H N) as S.
    destruct (adv_line b st) as [p|e| |]; [|exact S..].
    destruct S as [[]|(p' & -> & _ & _ & _ & _ & [(G & _)|(E & _)])]; [right; eauto|left; exact E].
  Qed.
End Moves.
