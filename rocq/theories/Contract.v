(** Contracts of scanning functions: what holds of a successful result, that fuel
    never runs out, that more input is requested only from extendable buffers, and
    when a panic is possible. *)
From Verif Require Export Lex SpecPos BaseFacts.
From Coq Require Export Lia.

Definition leaf {A} (o : flags) (P : A -> Prop) (pan : Prop) (r : sres A) : Prop :=
  match r with
  | Ok a => P a
  | Err e => e = Extend -> extendable o = true
  | Panic => pan
  | Fuel => False
  end.

Lemma leaf_bind {A B} o (P : A -> Prop) (Q : B -> Prop) pan m k :
  leaf o P pan m -> (forall a, P a -> leaf o Q pan (k a)) -> leaf o Q pan (bind m k).
Proof. destruct m; cbn; auto. Qed.

Lemma leaf_impl {A} o (P Q : A -> Prop) (p q : Prop) r :
  leaf o P p r -> (forall a, P a -> Q a) -> (p -> q) -> leaf o Q q r.
Proof. destruct r; cbn; auto. Qed.

Lemma leaf_ok {A} o (P : A -> Prop) p a : P a -> leaf o P p (Ok a).
Proof. exact (fun x => x). Qed.

Lemma leaf_err {A} o (P : A -> Prop) p e : e <> Extend -> leaf o P p (Err e).
Proof. intros H E. contradiction. Qed.

(** Loops: an invariant and a decreasing measure. *)
Lemma loop_rule {E S R} (body : S -> res E (step S R)) (Inv : S -> Prop) (mu : S -> nat)
  (Q : res E R -> Prop) :
  (forall s, Inv s ->
    match body s with
    | Ok (Next s') => Inv s' /\ mu s' < mu s
    | Ok (Done r) => Q (Ok r)
    | Err e => Q (Err e)
    | Panic => Q Panic
    | Fuel => Q Fuel
    end) ->
  forall fuel s, Inv s -> mu s < fuel -> Q (loop fuel body s).
Proof.
  intros H fuel. induction fuel as [|n IH]; intros s I L; [lia|].
  cbn [loop]. specialize (H s I). destruct (body s) as [[s'|r]|e| |]; auto.
  destruct H as [I' L']. apply IH; [exact I'|lia].
Qed.

Lemma leaf_loop {S R} o (body : S -> sres (step S R)) (Inv : S -> Prop) (mu : S -> nat)
  (P : R -> Prop) (pan : Prop) fuel s :
  (forall s, Inv s ->
    leaf o (fun x => match x with Next s' => Inv s' /\ mu s' < mu s | Done r => P r end)
      pan (body s)) ->
  Inv s -> mu s < fuel -> leaf o P pan (loop fuel body s).
Proof.
  intros H I L. apply (loop_rule body Inv mu (leaf o P pan)); [|exact I|exact L].
  intros s0 I0. specialize (H s0 I0).
  destruct (body s0) as [[s'|r]|e| |]; cbn in *; auto.
Qed.

(** ** Texts *)
Definition ascii (s : str) : Prop := Forall (fun b => (b < 128)%N) s.

Lemma ascii_skipn s n : ascii s -> ascii (skipn n s).
Proof.
  intros H. unfold ascii in *. rewrite Forall_forall in *. intros b I. apply H.
  rewrite <- (firstn_skipn n s). apply in_or_app. right; exact I.
Qed.

Lemma ascii_boundary s n : ascii s -> n <= List.length s -> is_boundary s n = true.
Proof.
  intros A L. destruct n as [|n]; [reflexivity|]. cbn [is_boundary].
  destruct (nth_error s (S n)) as [b|] eqn:E.
  - unfold ascii in A. rewrite Forall_forall in A. apply nth_error_In in E. apply A in E.
    unfold is_cont. destruct (N.leb_spec 128 b); [lia|reflexivity].
  - apply nth_error_None in E. apply Nat.eqb_eq. lia.
Qed.

Lemma boundary_le s n : is_boundary s n = true -> n <= List.length s.
Proof.
  destruct n as [|n]; cbn [is_boundary]; [lia|].
  destruct (nth_error s (S n)) eqn:E.
  - intros _. assert (nth_error s (S n) <> None) by congruence. apply nth_error_Some in H. lia.
  - intros H. apply Nat.eqb_eq in H. lia.
Qed.

Lemma skipn_skipn {A} (s : list A) n m : skipn n (skipn m s) = skipn (m + n) s.
Proof.
  revert s. induction m as [|m IH]; intros s; [reflexivity|].
  destruct s; [destruct n; reflexivity|]. cbn. apply IH.
Qed.

Lemma break_amt_le s : break_amt s <= List.length s.
Proof.
  unfold break_amt, at_is. destruct s as [|a r]; [reflexivity|].
  destruct (a =? 13)%N; [destruct r as [|b r]; cbn; [lia|destruct (b =? 10)%N; lia]|].
  destruct (a =? 10)%N; [cbn; lia|].
  destruct (a =? 194)%N; [destruct r as [|b r]; cbn; [lia|destruct (b =? 133)%N; lia]|].
  destruct (a =? 226)%N; [|cbn; lia].
  destruct r as [|b [|c r]]; cbn; try lia; destruct (b =? 128)%N; cbn; try lia.
  destruct (c =? 168)%N, (c =? 169)%N; cbn; lia.
Qed.

Lemma is_break_nonempty s : is_break s = true -> s <> [] /\ 0 < break_amt s.
Proof. unfold is_break. destruct s; [discriminate|]. split; [congruence|].
  destruct (break_amt (n :: s)); [discriminate|lia]. Qed.

Lemma is_break_amt s : is_break s = negb (Nat.eqb (break_amt s) 0).
Proof. reflexivity. Qed.

Lemma is_blank_nonempty s : is_blank s = true -> s <> [].
Proof. destruct s; [discriminate|congruence]. Qed.

Lemma at_is_nonempty s n c : at_is s n c = true -> n < List.length s.
Proof.
  unfold at_is. destruct (nth_error s n) eqn:E; [|discriminate]. intros _.
  apply nth_error_Some. congruence.
Qed.

(** ** Readings *)
Lemma reads_trans a sa b sb c sc : reads a sa b sb -> reads b sb c sc -> reads a sa c sc.
Proof.
  induction 1; intros K; [exact K| |].
  - eapply reads_text; eauto.
  - eapply reads_break; eauto.
Qed.

Lemma reads_suffix a sa b sb : reads a sa b sb -> exists n, b = skipn n a /\ n <= List.length a /\
  sread sb = sread sa + n.
Proof.
  induction 1 as [|s n st s' st' L _ _ R (m & -> & Lm & E)|s st s' st' _ _ R (m & -> & Lm & E)].
  - exists 0. cbn. repeat split; lia.
  - exists (n + m). rewrite skipn_skipn. rewrite skipn_length in Lm. cbn in E. repeat split; lia.
  - exists (break_amt s + m). rewrite skipn_skipn. pose proof (break_amt_le s).
    rewrite skipn_length in Lm. cbn in E. repeat split; lia.
Qed.

Lemma reads_len a sa b sb : reads a sa b sb -> List.length b <= List.length a /\
  sread sb + List.length b = sread sa + List.length a /\
  b = skipn (List.length a - List.length b) a.
Proof.
  intros H. destruct (reads_suffix _ _ _ _ H) as (n & -> & L & E).
  rewrite skipn_length. repeat split; try lia.
  f_equal. lia.
Qed.

Lemma reads_ascii a sa b sb : reads a sa b sb -> ascii a -> ascii b.
Proof.
  intros H A. destruct (reads_suffix _ _ _ _ H) as (n & -> & _). apply ascii_skipn, A.
Qed.

Lemma reads_consumed a sa b sb : reads a sa b sb ->
  skipn (consumed a b) a = b /\ sread sb = sread sa + consumed a b.
Proof.
  intros H. destruct (reads_len _ _ _ _ H) as (L & E & D). unfold consumed. split; [auto|lia].
Qed.

Lemma supd_text st n : supd st n 0 n = mkStats (sread st + n) (slines st) (scol st + n).
Proof. destruct st; unfold supd; cbn. f_equal; lia. Qed.
Lemma supd_break st n : supd st n 1 0 = mkStats (sread st + n) (S (slines st)) 0.
Proof. destruct st; unfold supd; cbn. f_equal; lia. Qed.

Lemma reads_adv s n st : n <= List.length s -> (forall k, k < n -> is_break (skipn k s) = false) ->
  is_boundary s n = true -> reads s st (skipn n s) (supd st n 0 n).
Proof. intros. eapply reads_text; eauto. rewrite supd_text. constructor. Qed.

Lemma reads_line s st : is_break s = true -> is_boundary s (break_amt s) = true ->
  reads s st (skipn (break_amt s) s) (supd st (break_amt s) 1 0).
Proof. intros. eapply reads_break; eauto. rewrite supd_break. constructor. Qed.

(** ** Primitive contracts *)
Lemma cache_at_leaf o n p : forall s off, leaf o (fun _ => True) p (cache_at o s off n).
Proof.
  induction n as [|n IH]; intros s off; cbn [cache_at]; [exact Logic.I|].
  destruct (width_at s off); [|apply IH].
  destruct (extendable o) eqn:E; cbn; auto.
Qed.
Lemma cache_leaf o s n p : leaf o (fun _ => True) p (cache o s n).
Proof. apply cache_at_leaf. Qed.

Lemma skip_leaf o s n : leaf o (fun r => r = skipn n s /\ is_boundary s n = true)
  (is_boundary s n = false) (skip s n).
Proof. unfold skip. destruct (is_boundary s n); cbn; auto. Qed.

Lemma adv_leaf o s st n :
  leaf o (fun '(s', st') => s' = skipn n s /\ st' = supd st n 0 n /\ is_boundary s n = true)
    (is_boundary s n = false) (adv s st n).
Proof. unfold adv, skip. destruct (is_boundary s n); cbn; auto. Qed.

Lemma adv_line_leaf o s st :
  leaf o (fun '(s', st') => s' = skipn (break_amt s) s /\ st' = supd st (break_amt s) 1 0 /\
            is_boundary s (break_amt s) = true)
    (is_boundary s (break_amt s) = false) (adv_line s st).
Proof. unfold adv_line, skip. destruct (is_boundary s (break_amt s)); cbn; auto. Qed.

(** Advance over text without breaks, and over a break. *)
Lemma adv_leaf' o s st n (pan : Prop) : n <= List.length s ->
  (forall k, k < n -> is_break (skipn k s) = false) ->
  (~ ascii s -> pan) ->
  leaf o (fun '(s', st') => reads s st s' st' /\ List.length s' = List.length s - n) pan (adv s st n).
Proof.
  intros L B P. eapply leaf_impl; [apply adv_leaf| |].
  - intros [s' st'] (-> & -> & H). split; [apply reads_adv; auto|apply skipn_length].
  - intros H. apply P. intros A. rewrite (ascii_boundary s n A L) in H. discriminate.
Qed.

Lemma adv_line_leaf' o s st (pan : Prop) : is_break s = true -> (~ ascii s -> pan) ->
  leaf o (fun '(s', st') => reads s st s' st' /\ List.length s' < List.length s) pan (adv_line s st).
Proof.
  intros B P. eapply leaf_impl; [apply adv_line_leaf| |].
  - intros [s' st'] (-> & -> & H). split; [apply reads_line; auto|].
    rewrite skipn_length. apply is_break_nonempty in B as [_ B].
    pose proof (break_amt_le s). lia.
  - intros H. apply P. intros A. rewrite (ascii_boundary s _ A (break_amt_le s)) in H. discriminate.
Qed.

Lemma adv1_leaf o s st (pan : Prop) : s <> [] -> is_break s = false -> (~ ascii s -> pan) ->
  leaf o (fun '(s', st') => reads s st s' st' /\ List.length s' < List.length s) pan (adv s st 1).
Proof.
  intros N B P. destruct s as [|a s]; [congruence|].
  eapply leaf_impl; [apply (adv_leaf' o _ st 1 pan); [cbn; lia| |exact P]| |auto].
  - intros k K. assert (k = 0) as -> by lia. exact B.
  - intros [s' st'] [R L]. split; [exact R|]. cbn in L |- *. lia.
Qed.

Lemma adv1_stats o s st (pan : Prop) : s <> [] -> is_break s = false -> (~ ascii s -> pan) ->
  leaf o (fun '(s', st') => reads s st s' st' /\ List.length s' < List.length s /\
                            st' = supd st 1 0 1 /\ s' = skipn 1 s) pan (adv s st 1).
Proof.
  intros N B P.
  pose proof (adv1_leaf o s st pan N B P) as H. pose proof (adv_leaf o s st 1) as K.
  destruct (adv s st 1) as [[s' st']|e| |]; cbn in *; auto.
  destruct K as (-> & -> & _). tauto.
Qed.

(** ** Character boundaries *)
Lemma nth_error_skipn {A} (s : list A) m n : nth_error (skipn m s) n = nth_error s (m + n).
Proof.
  revert s; induction m as [|m IH]; intros s; [reflexivity|].
  destruct s; [destruct n; reflexivity|]. apply IH.
Qed.

Lemma boundary_add s m n : is_boundary s m = true -> is_boundary (skipn m s) n = true ->
  is_boundary s (m + n) = true.
Proof.
  intros H K. pose proof (boundary_le _ _ H) as L. pose proof (boundary_le _ _ K) as L'.
  destruct n as [|n]; [rewrite Nat.add_0_r; exact H|].
  cbn [is_boundary] in K. rewrite nth_error_skipn in K. rewrite skipn_length in K, L'.
  destruct (m + S n) as [|k] eqn:E; [lia|]. cbn [is_boundary].
  destruct (nth_error s (S k)); [exact K|]. apply Nat.eqb_eq in K. apply Nat.eqb_eq. lia.
Qed.

Lemma reads_boundary a sa b sb : reads a sa b sb ->
  is_boundary a (List.length a - List.length b) = true.
Proof.
  induction 1 as [|s n st s' st' L _ B R IH|s st s' st' _ B R IH].
  - rewrite Nat.sub_diag. reflexivity.
  - apply reads_len in R as (LL & _). rewrite skipn_length in *.
    replace (List.length s - List.length s') with (n + (List.length s - n - List.length s')) by lia.
    apply boundary_add; assumption.
  - pose proof (break_amt_le s). apply reads_len in R as (LL & _). rewrite skipn_length in *.
    replace (List.length s - List.length s')
      with (break_amt s + (List.length s - break_amt s - List.length s')) by lia.
    apply boundary_add; assumption.
Qed.

(** Slicing and skipping what has been read does not panic. *)
Lemma slice_reads {E} a sa b sb : reads a sa b sb ->
  slice (E := E) a 0 (consumed a b) = Ok (firstn (consumed a b) a).
Proof.
  intros R. unfold slice, consumed. rewrite (reads_boundary _ _ _ _ R). cbn.
  rewrite Nat.sub_0_r. reflexivity.
Qed.
Lemma skip_reads {E} a sa b sb : reads a sa b sb -> skip (E := E) a (consumed a b) = Ok b.
Proof.
  intros R. unfold skip. unfold consumed. rewrite (reads_boundary _ _ _ _ R).
  apply reads_len in R as (_ & _ & <-). reflexivity.
Qed.

(** ** The class of texts for which escapes cannot panic: ASCII, percent escapes of
    ASCII octets only, [\u] and [\U] escapes of characters only. *)
Definition calm_number (s : str) (k : nat) (c : N) (n : nat) : Prop :=
  at_is s (S k) c = true -> forall v, read_hex n (skipn (S (S k)) s) 0 = Ok v -> valid_utf8 (encode_point v) = true.
Definition calm_at (s : str) (k : nat) : Prop :=
  (at_is s k 37 = true -> forall h, nth_error s (S k) = Some h -> is_hex_byte h = true -> (as_hex h < 8)%N) /\
  (at_is s k 92 = true -> calm_number s k 117 4 /\ calm_number s k 85 8).
Definition tame (s : str) : Prop := ascii s /\ forall k, calm_at s k.

Lemma at_is_skipn s n k c : at_is (skipn n s) k c = at_is s (n + k) c.
Proof. unfold at_is. rewrite nth_error_skipn. reflexivity. Qed.

Lemma tame_skipn s n : tame s -> tame (skipn n s).
Proof.
  intros [A C]. split; [apply ascii_skipn, A|]. intros k. specialize (C (n + k)).
  unfold calm_at, calm_number in *. rewrite !at_is_skipn, nth_error_skipn, skipn_skipn, <- !plus_n_Sm in *. exact C.
Qed.
Lemma reads_tame a sa b sb : reads a sa b sb -> tame a -> tame b.
Proof.
  intros H A. destruct (reads_suffix _ _ _ _ H) as (n & -> & _). apply tame_skipn, A.
Qed.
Lemma tame_ascii s : ~ ascii s -> ~ tame s.
Proof. intros H [A _]. contradiction. Qed.
