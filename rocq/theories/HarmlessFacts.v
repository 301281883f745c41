(** Harmless texts. *)
From Verif Require Export SpecHarmless EventCalm StreamFacts.
From Verif Require Import Utf8Facts ScanFacts QuotedFacts BlockCalm.
From Coq Require Import Lia ZifyBool ZifyN ZifyNat.
Open Scope nat_scope.

Lemma split_at {A} (t : list A) k x y : nth_error t k = Some x -> nth_error t (S k) = Some y ->
  t = firstn k t ++ x :: y :: skipn (S (S k)) t.
Proof.
  intros X Y. rewrite <- (firstn_skipn k t) at 1. f_equal.
  assert (X' : nth_error (skipn k t) 0 = Some x) by (rewrite nth_error_skipn, Nat.add_0_r; exact X).
  assert (Y' : nth_error (skipn k t) 1 = Some y) by (rewrite nth_error_skipn, Nat.add_1_r; exact Y).
  replace (S (S k)) with (k + 2) by lia. rewrite <- skipn_skipn.
  destruct (skipn k t) as [|u [|v r]]; cbn in *; congruence.
Qed.
Lemma encode_valid v : scalar_value v -> valid_utf8 (encode_point v) = true.
Proof.
  intros S. rewrite encode_point_ok by (destruct S; lia). apply valid_iff. exists [v].
  split; [constructor; [exact S|constructor]|]. cbn. rewrite app_nil_r. reflexivity.
Qed.

Lemma harmless_safe o t : harmless (lazy_mode o) t -> safe o t.
Proof.
  intros (A & B & D & E). split.
  2: { intros n st c fold H. destruct (at_is_cons _ _ H) as (r & EB).
       pose proof (ascii_skipn t n A) as AS. rewrite EB in *. intros P. unfold scan_block_scalar in P.
       destruct (lazy_mode o) eqn:LZ.
       - set (d := indent_usize (cur_indent c)) in P.
         destruct (scan_block_scalar_lazy o _ st d fold) as [[[x1 x2] x3]|e| |] eqn:X; cbn [bind] in P; try discriminate.
         revert X. apply lazy_unshaken, AS.
       - set (d := indent_usize (cur_indent c)) in P.
         destruct (scan_block_scalar_eager o _ st d fold) as [[[x1 x2] x3]|e| |] eqn:X; cbn [bind] in P; try discriminate.
         apply (eager_unshaken o _ _ _ _ _ AS) in X. revert X.
         apply (B eq_refl (firstn n t) (if fold then 62%N else 124%N)); [|destruct fold; auto].
         rewrite <- EB. symmetry. apply firstn_skipn. }
  split; [exact A|]. intros k. split.
  - intros X h Y Z. apply at_is_nth in X. rewrite (as_hex_value _ Z).
    apply (D _ _ _ (split_at _ _ _ _ X Y)), is_hex_iff, Z.
  - intros X. apply at_is_nth in X.
    assert (N : forall c n, In (c, n) numeric_escapes -> calm_number t k c n).
    { intros c n I Y v R. apply at_is_nth in Y. apply read_hex_value in R as (ds & r & ES & L & F & EV).
      subst v. apply encode_valid. change (hex_from ds 0) with (hex_number ds).
      apply (E (firstn k t) (92%N :: c :: ds) (hex_number ds) r); [|exact (den_number c n ds I L F)].
      cbn [app]. rewrite <- ES. exact (split_at _ _ _ _ X Y). }
    split; apply N; cbn; tauto.
Qed.

Lemma harmless_runs t o : harmless (lazy_mode o) t -> forall s l x, consumes (open t o) s = (l, x) -> x <> Panic /\ x <> Fuel.
Proof.
  intros H s l x E. pose proof (proj2 (valid_iff t) (ascii_well_formed t (proj1 H))) as V.
  destruct (stream_fuel t o V s l x E) as (F & P & _). split; [apply P, (harmless_safe (no_extend o)), H|exact F].
Qed.

Lemma harmless_events t lazy n : harmless lazy t ->
  ~ In Panic (until_failure (run_events peek_source false n parser0 (snd (events_new (Borrow t) lazy)))).
Proof.
  intros H. apply text_calm.
  - apply ascii_well_formed, (proj1 H).
  - intros s l x E. apply (harmless_runs t (as_scanner lazy) H s l x E).
Qed.

(** ** A test *)
Definition scalar_valueb (v : N) : bool := ((v <=? 1114111) && negb ((55296 <=? v) && (v <=? 57343)))%N.
Fixpoint blanksb (b : str) : bool :=
  match b with
  | [] => true
  | x :: r => ((x =? 10) || (x =? 13) || (x =? 35))%N || (((x =? 32) || (x =? 9))%N && blanksb r)
  end.
Fixpoint headerb (k : nat) (b : str) : bool :=
  blanksb b || match k, b with Datatypes.S k, x :: r => header_byte x && headerb k r | _, _ => false end.
Lemma headerb_line b : header_line b -> headerb 2 b = true.
Proof.
  intros (h & s & c & r & -> & L & FH & FS & HC & FC & HR).
  assert (B : blanksb (s ++ c ++ r) = true).
  { clear L. induction FS as [|x s X FS IH]; cbn [app].
    - destruct HC as [->|(c' & ->)]; [|reflexivity]. cbn [app].
      destruct HR as [->|(x & r' & -> & [->| ->])]; reflexivity.
    - cbn [blanksb]. rewrite IH. lia. }
  assert (G : forall k, List.length h <= k -> headerb k (h ++ s ++ c ++ r) = true); [|apply G, L].
  clear L. induction FH as [|x h X FH IH]; intros k L.
  - cbn [app]. destruct k; cbn [headerb]; rewrite B; reflexivity.
  - destruct k as [|k]; [cbn in L; lia|]. cbn [app headerb]. rewrite (IH k) by (cbn in L; lia).
    unfold header_sign in X. unfold header_byte, is_digit, rng. lia.
Qed.
Fixpoint harmlessb (lazy : bool) (t : str) : bool :=
  match t with
  | [] => true
  | c :: r =>
      (c <? 128)%N && (lazy || negb ((c =? 124) || (c =? 62))%N || negb (headerb 2 r)) &&
      match r with
      | h :: r' =>
          (negb (c =? 37)%N || negb (is_hex_byte h) || (digit_value h <? 8)%N) &&
          (negb (c =? 92)%N ||
           forallb (fun cn : N * nat => let (x, n) := cn in
             negb (h =? x)%N || negb (Nat.eqb (List.length (firstn n r')) n) ||
             negb (forallb is_hex_byte (firstn n r')) || scalar_valueb (hex_number (firstn n r'))) numeric_escapes)
      | [] => true
      end && harmlessb lazy r
  end.

Lemma harmlessb_suffix lazy a b : harmlessb lazy (a ++ b) = true -> harmlessb lazy b = true.
Proof.
  induction a as [|c a IH]; [auto|]. cbn [app harmlessb]. intros H. apply IH.
  apply andb_prop in H. tauto.
Qed.
Lemma table_scalars : Forall (fun cv : N * N => scalar_value (snd cv)) escape_table.
Proof. unfold escape_table, scalar_value. repeat (constructor; [cbn [snd]; lia|]). constructor. Qed.
Lemma harmlessb_harmless lazy t : harmlessb lazy t = true -> harmless lazy t.
Proof.
  intros H. split; [|split; [|split]].
  - apply Forall_forall. intros c I. apply in_split in I as (a & b & ->). apply harmlessb_suffix in H. cbn [harmlessb] in H.
    apply andb_prop in H as [H _]. apply andb_prop in H as [H _]. apply andb_prop in H as [H _]. lia.
  - intros -> a c b -> C X. apply harmlessb_suffix in H. cbn [harmlessb] in H.
    apply andb_prop in H as [H _]. apply andb_prop in H as [H _]. apply andb_prop in H as [_ H].
    rewrite (headerb_line _ X) in H. destruct C as [->| ->]; discriminate.
  - intros a h b -> X. apply harmlessb_suffix in H. cbn [harmlessb] in H.
    apply andb_prop in H as [H _]. apply andb_prop in H as [_ H]. apply andb_prop in H as [H _].
    apply is_hex_iff in X. rewrite X in H. cbn [N.eqb Pos.eqb negb orb] in H. apply N.ltb_lt, H.
  - intros a e v b -> D. apply harmlessb_suffix in H. destruct D as [c v I|c n ds I L F].
    + pose proof table_scalars as T. rewrite Forall_forall in T. exact (T _ I).
    + cbn [app harmlessb] in H.
      apply andb_prop in H as [H _]. apply andb_prop in H as [_ H]. apply andb_prop in H as [_ H].
      cbn [N.eqb Pos.eqb negb orb] in H. rewrite forallb_forall in H. specialize (H _ I). cbv beta iota in H.
      assert (FN : firstn n (ds ++ b) = ds) by (subst n; rewrite firstn_app, Nat.sub_diag, firstn_all, app_nil_r; reflexivity).
      rewrite FN, N.eqb_refl, L, Nat.eqb_refl in H.
      replace (forallb is_hex_byte ds) with true in H.
      * cbn [negb orb] in H. unfold scalar_valueb in H. unfold scalar_value. lia.
      * symmetry. apply forallb_forall. rewrite Forall_forall in F. intros x X. apply is_hex_iff, F, X.
Qed.

Lemma failing_assertion : exists t : str, harmless false t /\
  nth_error (run_events peek_source true 7 parser0 (snd (events_new (Borrow t) false))) 6 = Some Panic.
Proof. exists (bytes "[a: 'b' 'c']"). split; [apply harmlessb_harmless|]; vm_compute; reflexivity. Qed.
