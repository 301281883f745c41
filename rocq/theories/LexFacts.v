(** Contracts of white space, anchors, escapes, tags and directives. *)
From Verif Require Export Contract Tag SpecBlank.

Ltac prim := first [apply cache_leaf | apply cache_at_leaf].

(** ** White space *)
Lemma is_blank_not_break s : is_blank s = true -> is_break s = false.
Proof.
  unfold is_blank, is_break, break_amt, at_is. destruct s as [|a s]; [discriminate|]. cbn [nth_error].
  destruct (N.eqb_spec a 32) as [->|]; [reflexivity|].
  destruct (N.eqb_spec a 9) as [->|]; [reflexivity|discriminate].
Qed.

Lemma eat_ws_leaf o base st comments :
  leaf o (fun '(buf, st') => reads base st buf st') (~ ascii base)
    (eat_whitespace o base st comments).
Proof.
  unfold eat_whitespace.
  apply (leaf_loop o _ (fun '(buf, st', _) => reads base st buf st')
           (fun '(buf, _, _) => List.length buf)).
  2: constructor. 2: unfold fuel_of; lia.
  intros [[buf st'] chomp] R. unfold eat_ws_body.
  eapply leaf_bind; [prim|]. intros _ _.
  assert (A : ~ ascii buf -> ~ ascii base) by (intros X Y; exact (X (reads_ascii _ _ _ _ R Y))).
  assert (N : forall c, buf <> [] ->
    leaf o (fun x : step (str * stats * bool) (str * stats) => match x with
                     | Next s' => (let '(b, s2, _) := s' in reads base st b s2) /\
                                  (let '(b, _, _) := s' in List.length b) < List.length buf
                     | Done r => let '(b, s2) := r in reads base st b s2
                     end) (~ ascii base)
      (if is_break buf
       then let* '(buf', st') := adv_line buf st' in Ok (Next (buf', st', c))
       else let* '(buf', st') := adv buf st' 1 in Ok (Next (buf', st', c)))).
  { intros c NE. destruct (is_break buf) eqn:B.
    - eapply leaf_bind; [apply (adv_line_leaf' o buf st' _ B A)|].
      intros [b s2] [R2 L]. cbn. split; [eapply reads_trans; eauto|exact L].
    - eapply leaf_bind; [apply (adv1_leaf o buf st' _ NE B A)|].
      intros [b s2] [R2 L]. cbn. split; [eapply reads_trans; eauto|exact L]. }
  destruct (is_blank buf) eqn:Bl; [apply N, is_blank_nonempty, Bl|].
  destruct (is_break buf) eqn:Br; [apply N; apply is_break_nonempty in Br; tauto|].
  destruct (comments && at_is buf 0 35) eqn:C.
  { apply N. intros ->. rewrite andb_comm in C; discriminate. }
  destruct (chomp && negb (is_empty buf)) eqn:D.
  { apply N. intros ->. rewrite andb_comm in D; discriminate. }
  exact R.
Qed.

Lemma adv_line_skip buf st b s : adv_line buf st = Ok (b, s) -> b = skipn (break_amt buf) buf.
Proof.
  unfold adv_line, skip. destruct (is_boundary buf (break_amt buf)); [|discriminate]. cbn. congruence.
Qed.
Lemma adv_skip buf st n b s : adv buf st n = Ok (b, s) -> b = skipn n buf.
Proof. unfold adv, skip. destruct (is_boundary buf n); [|discriminate]. cbn. congruence. Qed.

(** With comments, what is eaten is what carries no token. *)
Lemma eat_ws_skips o base st rest st' :
  eat_whitespace o base st true = Ok (rest, st') -> skips false base rest.
Proof.
  intros E. assert (L : leaf o (fun x : str * stats => skips false base (fst x)) True (eat_whitespace o base st true)).
  2:{ rewrite E in L. exact L. }
  clear E. unfold eat_whitespace.
  apply (leaf_loop o _ (fun '(buf, _, c) => forall r, skips c buf r -> skips false base r)
           (fun '(buf, _, _) => List.length buf)).
  2: auto. 2: unfold fuel_of; lia.
  intros [[buf s] chomp] I. unfold eat_ws_body.
  eapply leaf_bind; [prim|]. intros _ _.
  destruct (is_blank buf) eqn:Bl.
  { rewrite (is_blank_not_break _ Bl). pose proof (is_blank_nonempty _ Bl) as NE.
    pose proof (adv1_leaf o buf s True NE (is_blank_not_break _ Bl) ltac:(auto)) as A.
    destruct (adv buf s 1) as [[b s2]|e| |] eqn:EA; cbn in *; auto.
    apply adv_skip in EA. subst b. split; [|apply A]. intros r R. apply I, sk_blank; auto. }
  destruct (is_break buf) eqn:Br.
  { pose proof (adv_line_leaf' o buf s True Br ltac:(auto)) as A.
    destruct (adv_line buf s) as [[b s2]|e| |] eqn:EA; cbn in *; auto.
    apply adv_line_skip in EA. subst b. split; [|apply A]. intros r R. apply I, sk_break; auto. }
  cbn [andb]. destruct (at_is buf 0 35) eqn:C.
  { assert (NE : buf <> []) by (intros ->; discriminate C).
    pose proof (adv1_leaf o buf s True NE Br ltac:(auto)) as A.
    destruct (adv buf s 1) as [[b s2]|e| |] eqn:EA; cbn in *; auto.
    apply adv_skip in EA. subst b. split; [|apply A]. intros r R. apply I.
    destruct chomp; [apply sk_comment|apply sk_open]; auto. }
  destruct (chomp && negb (is_empty buf)) eqn:D.
  { apply andb_prop in D as [-> D]. assert (NE : buf <> []) by (intros ->; discriminate D).
    pose proof (adv1_leaf o buf s True NE Br ltac:(auto)) as A.
    destruct (adv buf s 1) as [[b s2]|e| |] eqn:EA; cbn in *; auto.
    apply adv_skip in EA. subst b. split; [|apply A]. intros r R. apply I, sk_comment; auto. }
  cbn. apply I. destruct buf as [|x buf]; [apply sk_eof|]. destruct chomp; [discriminate D|].
  apply sk_end; auto.
Qed.

(** ** Runs of bytes *)
Lemma firstn_in_skipn {A} (s : list A) n k : k < n -> n <= List.length s ->
  exists b r, skipn k s = b :: r /\ In b (firstn n s).
Proof.
  revert s k; induction n as [|n IH]; intros s k K L; [lia|].
  destruct s as [|a s]; [cbn in L; lia|]. destruct k as [|k].
  - exists a, s. split; [reflexivity|left; reflexivity].
  - cbn in L. destruct (IH s k) as (b & r & E & I); [lia|lia|].
    exists b, r. split; [exact E|right; exact I].
Qed.

Definition plain_byte (b : N) : Prop := (b <> 10 /\ b <> 13 /\ b < 128)%N.

Lemma plain_byte_no_break b r : plain_byte b -> is_break (b :: r) = false.
Proof.
  intros (A & B & C). unfold is_break, break_amt.
  destruct (N.eqb_spec b 13); [congruence|]. destruct (N.eqb_spec b 10); [congruence|].
  destruct (N.eqb_spec b 194); [lia|]. destruct (N.eqb_spec b 226); [lia|]. reflexivity.
Qed.

Lemma no_breaks s n : n <= List.length s -> Forall plain_byte (firstn n s) ->
  forall k, k < n -> is_break (skipn k s) = false.
Proof.
  intros L F k K. destruct (firstn_in_skipn s n k K L) as (b & r & -> & I).
  rewrite Forall_forall in F. apply plain_byte_no_break, F, I.
Qed.

Lemma adv_plain o s st n (pan : Prop) : n <= List.length s -> Forall plain_byte (firstn n s) ->
  (~ ascii s -> pan) ->
  leaf o (fun '(s', st') => reads s st s' st' /\ s' = skipn n s) pan (adv s st n).
Proof.
  intros L F P.
  pose proof (adv_leaf' o s st n pan L (no_breaks s n L F) P) as H.
  pose proof (adv_leaf o s st n) as K.
  destruct (adv s st n) as [[s' st']|e| |]; cbn in *; auto. tauto.
Qed.

Lemma take_while_leaf o f s p :
  leaf o (fun n => n <= List.length s /\ Forall (fun b => f b = true) (firstn n s)) p (take_while o f s).
Proof.
  induction s as [|b s IH]; cbn [take_while].
  - eapply leaf_bind; [prim|]. intros _ _. cbn. auto.
  - eapply leaf_bind; [prim|]. intros _ _. destruct (f b) eqn:F.
    + eapply leaf_bind; [exact IH|]. intros n [L A]. cbn. split; [lia|]. constructor; auto.
    + cbn. split; [lia|constructor].
Qed.

Lemma alnum_plain b : is_alnum b = true -> plain_byte b.
Proof. unfold is_alnum, is_digit, is_upper, is_lower, plain_byte. lia. Qed.
Lemma digit_plain b : is_digit b = true -> plain_byte b.
Proof. unfold is_digit, plain_byte. lia. Qed.

Lemma Forall_imp {A} (P Q : A -> Prop) l : (forall x, P x -> Q x) -> Forall P l -> Forall Q l.
Proof. intros H F. induction F; constructor; auto. Qed.

Lemma at_is_cons s c : at_is s 0 c = true -> exists r, s = c :: r.
Proof. destruct s as [|b r]; [discriminate|]. cbn. intros E. apply N.eqb_eq in E. subst. eauto. Qed.

(** ** Anchors *)
Lemma scan_anchor_leaf o c r st alias : plain_byte c ->
  leaf o (fun '(_, buf, st') => reads (c :: r) st buf st' /\ List.length buf < S (List.length r))
    (~ ascii (c :: r)) (scan_anchor o (c :: r) st alias).
Proof.
  intros C. unfold scan_anchor.
  eapply leaf_bind; [apply (adv1_leaf o (c :: r) st (~ ascii (c :: r))); [discriminate|apply plain_byte_no_break, C|auto]|].
  intros [buf st1] [R1 L1].
  assert (A1 : ~ ascii buf -> ~ ascii (c :: r)) by (intros X Y; exact (X (reads_ascii _ _ _ _ R1 Y))).
  eapply leaf_bind; [apply take_while_leaf|]. intros n [L F].
  eapply leaf_bind; [apply (adv_plain o buf st1 n (~ ascii (c :: r)) L)|].
  { eapply Forall_imp; [exact alnum_plain|exact F]. } { exact A1. }
  intros [b2 st2] [R2 ->].
  destruct (is_empty (firstn n buf)); [apply leaf_err; discriminate|].
  eapply leaf_bind; [prim|]. intros _ _.
  destruct (skipn n buf) as [|b t] eqn:E; [apply leaf_err; discriminate|].
  destruct (anchor_follow b); [|apply leaf_err; discriminate].
  cbn. split; [eapply reads_trans; eauto|].
  apply reads_len in R2 as (H & _). cbn in *. lia.
Qed.

(** ** Escapes *)
Lemma read_hex_leaf o n : forall buf v p,
  leaf o (fun _ => n <= List.length buf /\ Forall (fun b => is_hex_byte b = true) (firstn n buf)) p
    (read_hex n buf v).
Proof.
  induction n as [|n IH]; intros buf v p; cbn [read_hex].
  - cbn. split; [lia|constructor].
  - destruct buf as [|b r]; [apply leaf_err; discriminate|].
    destruct (is_hex_byte b) eqn:H; [|apply leaf_err; discriminate].
    eapply leaf_impl; [apply IH| |intros X; exact X]. cbn. intros _ [L F].
    split; [lia|constructor; auto].
Qed.

Lemma hex_plain b : is_hex_byte b = true -> plain_byte b.
Proof. unfold is_hex_byte, is_digit, rng, plain_byte. lia. Qed.

Lemma escape_plain b e : escape_of b = Some e -> plain_byte b.
Proof.
  unfold escape_of, plain_byte.
  repeat match goal with |- context [if ?c then _ else _] => destruct c eqn:?; [intros _; lia|] end.
  discriminate.
Qed.

(** The amount read by an escape is text without breaks. *)
Lemma flow_unescape_leaf o base : at_is base 0 92 = true ->
  leaf o (fun '(_, n) => 0 < n <= List.length base /\ Forall plain_byte (firstn n base)) (~ ascii base)
    (flow_unescape o base).
Proof.
  intros H. unfold flow_unescape. rewrite H. destruct (at_is_cons _ _ H) as (r & ->).
  eapply leaf_bind; [prim|]. intros _ _. cbn [negb].
  assert (K : forall n, n <= S (List.length r) -> is_boundary (92%N :: r) n = false -> ~ ascii (92%N :: r)).
  { intros n L E A. rewrite (ascii_boundary _ n A) in E; [discriminate|cbn; lia]. }
  eapply leaf_bind.
  { eapply leaf_impl; [apply (skip_leaf o (92%N :: r) 1)|intros a X; exact X|]. apply K; lia. }
  intros buf [-> _]. cbn [skipn].
  eapply leaf_bind; [prim|]. intros _ _.
  destruct r as [|b r]; [apply leaf_err; discriminate|].
  destruct (escape_of b) as [[w|n]|] eqn:E; [| |apply leaf_err; discriminate].
  - pose proof (escape_plain _ _ E) as PB.
    eapply leaf_bind.
    { eapply leaf_impl; [apply (skip_leaf o (b :: r) 1)|intros a X; exact X|].
      intros X A. inversion A as [|? ? _ A']; subst.
      rewrite (ascii_boundary _ 1 A') in X; [discriminate|cbn; lia]. }
    intros b2 [-> _]. cbn [skipn]. unfold consumed. cbn [List.length].
    replace (S (S (List.length r)) - List.length r) with 2 by lia.
    cbn [leaf firstn]. split; [lia|]. repeat constructor; try apply PB; cbn; discriminate.
  - pose proof (escape_plain _ _ E) as PB.
    eapply leaf_bind.
    { eapply leaf_impl; [apply (skip_leaf o (b :: r) 1)|intros a X; exact X|].
      intros X A. inversion A as [|? ? _ A']; subst.
      rewrite (ascii_boundary _ 1 A') in X; [discriminate|cbn; lia]. }
    intros b2 [-> _]. cbn [skipn].
    eapply leaf_bind; [prim|]. intros _ _.
    eapply leaf_bind; [apply read_hex_leaf|]. intros v [L F].
    eapply leaf_bind.
    { eapply leaf_impl; [apply (skip_leaf o r n)|intros a X; exact X|].
      intros X A. inversion A as [|? ? _ A']; subst. inversion A' as [|? ? _ A2]; subst.
      rewrite (ascii_boundary _ n A2) in X; [discriminate|exact L]. }
    intros b3 [-> _]. unfold consumed. rewrite skipn_length. cbn [List.length].
    replace (S (S (List.length r)) - (List.length r - n)) with (S (S n)) by lia.
    cbn [leaf firstn]. split; [lia|].
    constructor; [repeat split; cbn; discriminate|]. constructor; [exact PB|].
    eapply Forall_imp; [exact hex_plain|exact F].
Qed.

Lemma tag_uri_unescape_leaf o base :
  leaf o (fun '(_, n) => 0 < n <= List.length base /\ Forall plain_byte (firstn n base)) (~ ascii base)
    (tag_uri_unescape o base).
Proof.
  unfold tag_uri_unescape.
  eapply leaf_bind.
  - apply (leaf_loop o _
      (fun '(buf, _, _) => exists n, buf = skipn n base /\ n <= List.length base /\
                           Forall plain_byte (firstn n base))
      (fun '(buf, _, _) => List.length buf)
      (fun '(buf, _) => exists n, buf = skipn n base /\ 0 < n <= List.length base /\
                           Forall plain_byte (firstn n base)) (~ ascii base)).
    2: { exists 0. repeat split; [lia|constructor]. } 2: unfold fuel_of; lia.
    intros [[buf out] pending] (n & -> & L & F). unfold uri_unescape_body.
    eapply leaf_bind; [prim|]. intros _ _.
    destruct (skipn n base) as [|p [|h [|l t]]] eqn:S; try (apply leaf_err; discriminate).
    destruct ((p =? 37)%N && is_hex_byte h && is_hex_byte l) eqn:G; [|apply leaf_err; discriminate].
    eapply (leaf_bind o (fun _ => True)).
    { destruct pending as [k|].
      - destruct (_ =? 128)%N; [exact Logic.I|apply leaf_err; discriminate].
      - destruct (octet_len _); [exact Logic.I|apply leaf_err; discriminate]. }
    intros len _.
    assert (L3 : n + 3 <= List.length base).
    { assert (X : List.length (skipn n base) = List.length (p :: h :: l :: t)) by (rewrite S; reflexivity).
      rewrite skipn_length in X. cbn in X. lia. }
    eapply leaf_bind.
    { eapply leaf_impl; [apply (skip_leaf o (p :: h :: l :: t) 3)|intros a X; exact X|].
      intros X A. rewrite (ascii_boundary (p :: h :: l :: t) 3) in X; [discriminate| |cbn; lia].
      rewrite <- S. apply ascii_skipn, A. }
    intros b2 [-> _].
    assert (F3 : Forall plain_byte (firstn (n + 3) base)).
    { rewrite <- (firstn_skipn n base) at 1. rewrite S.
      rewrite firstn_app, firstn_firstn, firstn_length, (Nat.min_r (n + 3) n) by lia.
      apply Forall_app. split; [exact F|].
      replace (n + 3 - Nat.min n (List.length base)) with 3 by lia.
      apply andb_true_iff in G as [G1 G3]. apply andb_true_iff in G1 as [G1 G2].
      apply N.eqb_eq in G1. subst.
      constructor; [repeat split; cbn; discriminate|].
      constructor; [apply hex_plain, G2|]. constructor; [apply hex_plain, G3|constructor]. }
    assert (E3 : skipn 3 (p :: h :: l :: t) = skipn (n + 3) base)
      by (rewrite <- skipn_skipn, S; reflexivity).
    rewrite E3.
    destruct len as [|[|k]]; cbn [leaf].
    + exists (n + 3). repeat split; try lia. exact F3.
    + exists (n + 3). repeat split; try lia. exact F3.
    + split; [exists (n + 3); repeat split; try lia; exact F3|].
      rewrite <- E3. cbn. lia.
  - intros [buf out] (n & -> & L & F). unfold consumed. rewrite skipn_length.
    cbn [leaf]. replace (List.length base - (List.length base - n)) with n by lia. auto.
Qed.
