(** Block scalars of token streams, and scalars delivered without copying. *)
From Verif Require Export BlockStream PlainStream SpecBorrow.
From Verif Require Import SpecUtf8 SpecStream Utf8Facts History StreamFacts ContentFacts.
From Coq Require Import Lia ZifyBool ZifyN ZifyNat.
Open Scope nat_scope.

Lemma stream_block t o s l x e c (fold : bool) : valid t -> consumes (open t o) s = (l, x) -> In e l ->
  e_wrap e = Tok (TScalar c (if fold then Folded else Literal)) ->
  exists n parent b v r, is_boundary t n = true /\ skipn n t = block_indicator fold :: b /\ block fold parent b v r /\
    (exactly t -> r = skipn (e_read e) t) /\
    (forall y, c = Owned y -> y = v) /\
    (forall y, c = Borrowed y -> (exists a s1 k z, b = a ++ s1 /\ header_line a s1 /\ s1 = repeat 32%N k ++ y ++ z ++ r) /\ but_final_break v y /\
       (line_feeds_only t -> y = v \/ r = [] /\ v = y ++ [10%N] /\ last_line b y)).
Proof.
  intros V C IN EW. destruct (stream_from t o V s l x e C IN) as (n & st & cx & k & st' & B & CT & ER & POS).
  { unfold e_marker. rewrite EW. destruct fold; reflexivity. }
  rewrite EW in CT.
  assert (K : at_is (skipn n t) 0 (block_indicator fold) = true /\ lazy_mode o = false /\
    scan_block_scalar_eager (no_extend o) (skipn n t) st (indent_usize (cur_indent cx)) fold =
      Ok (TScalar c (if fold then Folded else Literal), k, st')).
  { remember (Tok (TScalar c (if fold then Folded else Literal))) as m eqn:EM.
    destruct CT as [A|start A1 A2 A3|dk tok buf k d A1 A2 A3 D A4|tok k d A D|alias tok buf k d A D A2
      |sg tok k d A D|tok k st' A D|fd tok k st' A1 A2 D].
    - discriminate.
    - destruct start; discriminate.
    - destruct (ScanFacts.directive_kind _ _ _ _ _ _ _ D) as [(? & ? & ->)|(? & ? & ->)]; discriminate.
    - destruct (tag_kind _ _ _ _ _ _ D) as (? & ? & ->). discriminate.
    - destruct (anchor_kind _ _ _ _ _ _ _ D) as (? & ->). destruct alias; discriminate.
    - subst tok. destruct (flow_style _ _ _ _ _ _ _ D) as (L & E & y & E'). destruct sg, fold; discriminate.
    - subst tok. destruct (plain_style _ _ _ _ _ _ _ D) as (y & E). destruct fold; discriminate.
    - subst tok. pose proof D as D'. destruct (block_style _ _ _ _ _ _ _ _ D') as (y & E).
      assert (fd = fold) as -> by (destruct fd, fold; congruence).
      split; [exact A1|].
      unfold scan_block_scalar in D. change (lazy_mode (no_extend o)) with (lazy_mode o) in D.
      destruct (lazy_mode o); [apply bind_inv in D as ([[? ?] ?] & _ & D); discriminate|].
      split; [reflexivity|]. apply bind_inv in D as ([[tk k'] st2] & D & X).
      assert (tk = TScalar c (if fold then Folded else Literal)) as <- by congruence.
      assert (k' = k) as <- by congruence. assert (st2 = st') as <- by congruence. exact D. }
  destruct K as (A & NL & E).
  assert (VS : valid (skipn n t)) by (apply valid_skipn; assumption).
  destruct (block_sound _ _ _ _ _ _ _ _ VS E) as (c' & i & b & v & ET & EB & LE & BL & OW & BO).
  assert (c' = c) as -> by congruence.
  assert (i = block_indicator fold) as ->. { rewrite EB in A. unfold at_is in A. cbn in A. apply N.eqb_eq, A. }
  exists n, (indent_usize (cur_indent cx)), b, v, (skipn k (skipn n t)).
  split; [exact B|]. split; [exact EB|]. split; [exact BL|]. split; [|split; [exact OW|]].
  - intros EX. destruct (POS EX) as [_ R2]. specialize (R2 NL). apply exact_suffix in R2.
    rewrite ER, <- R2, skipn_skipn. reflexivity.
  - intros y ->. destruct (BO y eq_refl) as (E1 & E2 & E3). split; [exact E1|]. split; [exact E2|].
    intros LF. apply E3. unfold line_feeds_only in *. rewrite <- (firstn_skipn n t) in LF. apply Forall_app in LF. apply LF.
Qed.

(** ** As claimed *)
Lemma block_streams (t : str) (o : flags) : well_formed t ->
  forall s l x e c (fold : bool), consumes (open t o) s = (l, x) -> In e l -> e_wrap e = Tok (TScalar c (if fold then Folded else Literal)) ->
    exists n parent b v r, skipn n t = block_indicator fold :: b /\ block fold parent b v r /\
      but_final_break v (cow_str c) /\
      (line_feeds_only t -> cow_str c = v \/ r = [] /\ v = cow_str c ++ [10%N] /\ last_line b (cow_str c)) /\
      (no_verbatim_tag t -> r = skipn (e_read e) t).
Proof.
  intros W s l x e c fold C IN E.
  destruct (stream_block t o s l x e c fold) as (n & parent & b & v & r & _ & EB & BL & P & OW & BO); auto.
  { apply valid_iff, W. }
  exists n, parent, b, v, r. split; [exact EB|]. split; [exact BL|].
  split; [|split].
  - destruct c as [y|y]; cbn [cow_str]; [apply BO; reflexivity|]. rewrite (OW y eq_refl). exists v. auto.
  - intros LF. destruct c as [y|y]; cbn [cow_str]; [apply BO; [reflexivity|exact LF]|left; apply OW; reflexivity].
  - intros NV. apply P, no_verbatim_exactly, NV.
Qed.
Lemma borrowed_streams (t : str) (o : flags) : well_formed t ->
  forall s l x e y style, consumes (open t o) s = (l, x) -> In e l -> e_wrap e = Tok (TScalar (Borrowed y) style) ->
    exists n r, delimited style (skipn n t) y r /\ (no_verbatim_tag t -> r = skipn (e_read e) t).
Proof.
  intros W s l x e y style C IN E. assert (V : valid t) by (apply valid_iff, W).
  destruct style.
  - destruct (stream_plain t o s l x e (Borrowed y) V C IN E) as (n & flow & indent & k & r & _ & P & G & NW & R & P2 & BR).
    exists n, r. split; [apply BR; reflexivity|]. intros NV. apply P2, no_verbatim_exactly, NV.
  - destruct (stream_quoted t o s l x e (Borrowed y) true V C IN E) as (n & body & r & A & _ & P & BR).
    exists n, r. split; [rewrite A, (BR y eq_refl); reflexivity|]. intros NV. apply P, no_verbatim_exactly, NV.
  - destruct (stream_quoted t o s l x e (Borrowed y) false V C IN E) as (n & body & r & A & _ & P & BR).
    exists n, r. split; [rewrite A, (BR y eq_refl); reflexivity|]. intros NV. apply P, no_verbatim_exactly, NV.
  - destruct (stream_block t o s l x e (Borrowed y) false V C IN E) as (n & parent & b & v & r & _ & EB & _ & P & _ & BO).
    exists n, r. destruct (BO y eq_refl) as ((a & s1 & k & z & -> & HB & ->) & _). split; [exists a, k, z; split; [exact HB|exact EB]|]. intros NV. apply P, no_verbatim_exactly, NV.
  - destruct (stream_block t o s l x e (Borrowed y) true V C IN E) as (n & parent & b & v & r & _ & EB & _ & P & _ & BO).
    exists n, r. destruct (BO y eq_refl) as ((a & s1 & k & z & -> & HB & ->) & _). split; [exists a, k, z; split; [exact HB|exact EB]|]. intros NV. apply P, no_verbatim_exactly, NV.
Qed.
