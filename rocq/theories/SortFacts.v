(** Stable sorting of token entries by insertion. *)
From Verif Require Export SpecStream SpecQueue QueueFacts.
From Coq Require Import Lia Permutation.
Open Scope nat_scope.

Fixpoint ins (x : entry) (l : list entry) : list entry :=
  match l with
  | [] => [x]
  | y :: r => if Nat.leb (e_read y) (e_read x) then y :: ins x r else x :: l
  end.
Definition isort (l : list entry) : list entry := fold_left (fun l x => ins x l) l [].

Lemma isort_snoc l x : isort (l ++ [x]) = ins x (isort l).
Proof. unfold isort. rewrite fold_left_app. reflexivity. Qed.

Lemma ins_perm x l : Permutation (ins x l) (x :: l).
Proof.
  induction l as [|y l IH]; cbn; [reflexivity|]. destruct (Nat.leb _ _); [|reflexivity].
  rewrite IH. apply perm_swap.
Qed.
Lemma isort_perm l : Permutation (isort l) l.
Proof.
  induction l as [|x l IH] using rev_ind; [reflexivity|].
  rewrite isort_snoc, ins_perm, IH. apply Permutation_cons_append.
Qed.

Lemma ins_split x l : exists a b, l = a ++ b /\ ins x l = a ++ x :: b /\
  Forall (fun y => e_read y <= e_read x) a.
Proof.
  induction l as [|y l (a & b & E & I & F)]; cbn.
  - exists [], []. auto.
  - destruct (Nat.leb_spec (e_read y) (e_read x)).
    + exists (y :: a), b. rewrite E at 1. rewrite I. repeat split; auto.
    + exists [], (y :: l). auto.
Qed.

Lemma ins_last x l : Forall (fun y => e_read y <= e_read x) l -> ins x l = l ++ [x].
Proof.
  induction 1 as [|y l H F IH]; cbn; [reflexivity|].
  destruct (Nat.leb_spec (e_read y) (e_read x)); [|lia]. rewrite IH. reflexivity.
Qed.
Lemma ins_first x l : Forall (fun y => e_read x < e_read y) l -> ins x l = x :: l.
Proof.
  destruct 1 as [|y l H F]; cbn; [reflexivity|].
  destruct (Nat.leb_spec (e_read y) (e_read x)); [lia|]. reflexivity.
Qed.
Lemma ins_app x a b : Forall (fun y => e_read y <= e_read x) a -> ins x (a ++ b) = a ++ ins x b.
Proof.
  induction 1 as [|y l H F IH]; cbn; [reflexivity|].
  destruct (Nat.leb_spec (e_read y) (e_read x)); [|lia]. rewrite IH. reflexivity.
Qed.

(** Entries at or after everything before them sort behind. *)
Lemma isort_app a b m : Forall (fun y => e_read y <= m) a -> Forall (fun y => m <= e_read y) b ->
  isort (a ++ b) = isort a ++ isort b.
Proof.
  intros A. induction b as [|x b IH] using rev_ind; intros B; [rewrite !app_nil_r; reflexivity|].
  apply Forall_app in B as [B X]. inversion X as [|? ? X1 _]; subst.
  rewrite app_assoc, !isort_snoc, (IH B). apply ins_app.
  apply (Permutation_Forall (Permutation_sym (isort_perm a))).
  eapply Forall_impl; [|exact A]. intros y Y. cbn in *. lia.
Qed.

Inductive ordered : list entry -> Prop :=
| ord_nil : ordered []
| ord_cons x l : Forall (fun y => e_read x <= e_read y) l -> ordered l -> ordered (x :: l).
Lemma ordered_app a b : ordered (a ++ b) <->
  ordered a /\ ordered b /\ (forall x y, In x a -> In y b -> e_read x <= e_read y).
Proof.
  induction a as [|x a IH]; cbn.
  - split; [intros H; repeat split; [constructor|exact H|intros ? ? []]|tauto].
  - split.
    + intros H. inversion H as [|? ? F O]; subst. apply IH in O as (A & B & C).
      apply Forall_app in F as [F1 F2]. repeat split; auto; [constructor; auto|].
      intros u v [<-|U] W; [|auto]. rewrite Forall_forall in F2. auto.
    + intros (A & B & C). inversion A as [|? ? F O]; subst. constructor.
      * apply Forall_app. split; [exact F|]. apply Forall_forall. auto.
      * apply IH. auto.
Qed.
Lemma ins_ordered x l : ordered l -> ordered (ins x l).
Proof.
  induction 1 as [|y l F O IH]; cbn; [repeat constructor|].
  destruct (Nat.leb_spec (e_read y) (e_read x)).
  - constructor; [|exact IH]. apply (Permutation_Forall (Permutation_sym (ins_perm x l))).
    constructor; assumption.
  - constructor; [|constructor; assumption]. constructor; [lia|].
    eapply Forall_impl; [|exact F]. intros z Z. cbn in Z. lia.
Qed.
Lemma isort_ordered l : ordered (isort l).
Proof. induction l as [|x l IH] using rev_ind; [constructor|]. rewrite isort_snoc. apply ins_ordered, IH. Qed.

Lemma entry_order : total_order entry entry_cmp.
Proof.
  split; [intros a b; apply Nat.compare_antisym|].
  intros a b c. unfold entry_cmp. rewrite !Nat.compare_le_iff. apply Nat.le_trans.
Qed.

(** Taking from the pending entries is taking the head of the sorted ones. *)
Lemma takes_isort l x rest : takes entry entry_cmp l x rest -> isort l = x :: isort rest.
Proof.
  intros (a & b & -> & -> & L & G).
  assert (A : isort (a ++ [x]) = x :: isort a).
  { rewrite isort_snoc. apply ins_first. apply (Permutation_Forall (Permutation_sym (isort_perm a))).
    apply Forall_forall. intros y Y. specialize (L y Y). apply Nat.compare_lt_iff in L. exact L. }
  replace (a ++ x :: b) with ((a ++ [x]) ++ b) by (rewrite <- app_assoc; reflexivity).
  clear L. revert G. induction b as [|y b IH] using rev_ind; intros G.
  - rewrite !app_nil_r. exact A.
  - rewrite !app_assoc, !isort_snoc, IH.
    + cbn [ins]. destruct (Nat.leb_spec (e_read x) (e_read y)); [reflexivity|].
      exfalso. specialize (G y ltac:(apply in_or_app; right; left; reflexivity)). apply G.
      apply Nat.compare_gt_iff. lia.
    + intros z Z. apply G. apply in_or_app. auto.
Qed.

(** ** Nesting *)
Section Nested.
  Variables opens closes : marker -> bool.

  Lemma count_app f a b : count f (a ++ b) = count f a + count f b.
  Proof. unfold count. rewrite filter_app, app_length. reflexivity. Qed.
  Lemma count_cons f x l : count f (x :: l) = (if f (e_marker x) then 1 else 0) + count f l.
  Proof. unfold count. cbn. destruct (f (e_marker x)); reflexivity. Qed.
  Lemma count_perm f a b : Permutation a b -> count f a = count f b.
  Proof.
    induction 1; rewrite ?count_cons; [reflexivity|lia|lia|congruence].
  Qed.

  Lemma nested_nil : nested opens closes [].
  Proof. intros a b E. symmetry in E. apply app_eq_nil in E as [-> _]. cbn. lia. Qed.

  Lemma nested_total l : nested opens closes l -> count closes l <= count opens l.
  Proof. intros H. apply (H l []). rewrite app_nil_r. reflexivity. Qed.

  (** Inserting an entry that closes nothing. *)
  Lemma nested_insert a x b : nested opens closes (a ++ b) -> closes (e_marker x) = false ->
    nested opens closes (a ++ x :: b).
  Proof.
    intros H C p s E. apply app_eq_app in E as (l & [[-> E]|[-> E]]).
    - (* the cut is in [a] *)
      apply (H p (l ++ b)). rewrite app_assoc. reflexivity.
    - destruct l as [|y l]; cbn [app] in E.
      + rewrite app_nil_r. apply (H a b eq_refl).
      + injection E as <- ->. specialize (H (a ++ l) s).
        rewrite <- app_assoc in H. specialize (H eq_refl).
        rewrite !count_app, ?count_cons in *. rewrite C. lia.
  Qed.
  Lemma nested_close a x : nested opens closes a -> count closes a < count opens a ->
    nested opens closes (a ++ [x]).
  Proof.
    intros H C p s E. apply app_eq_app in E as (l & [[-> E]|[-> E]]).
    - apply (H p l). reflexivity.
    - destruct l as [|y l]; cbn [app] in E.
      + rewrite app_nil_r. apply nested_total, H.
      + injection E as -> E. symmetry in E. apply app_eq_nil in E as [-> ->].
        rewrite !count_app, !count_cons. change (count closes []) with 0. change (count opens []) with 0.
        destruct (closes (e_marker y)), (opens (e_marker y)); lia.
  Qed.
  Lemma nested_prefix a b : nested opens closes (a ++ b) -> nested opens closes a.
  Proof. intros H p s ->. apply (H p (s ++ b)). rewrite app_assoc. reflexivity. Qed.

  (** Closing entries come with the latest mark and find something open. *)
  Definition closers_ok (l : list entry) : Prop :=
    forall a x b, l = a ++ x :: b -> closes (e_marker x) = true ->
      Forall (fun y => e_read y <= e_read x) a /\ count closes a < count opens a.
  Lemma closers_isort l : closers_ok l -> nested opens closes (isort l).
  Proof.
    induction l as [|x l IH] using rev_ind; intros H; [exact nested_nil|].
    rewrite isort_snoc.
    assert (Hl : closers_ok l).
    { intros a y b -> C. apply (H a y (b ++ [x])); [|exact C]. rewrite <- app_assoc. reflexivity. }
    specialize (IH Hl). destruct (closes (e_marker x)) eqn:C.
    - destruct (H l x [] eq_refl C) as [F L].
      rewrite ins_last by (apply (Permutation_Forall (Permutation_sym (isort_perm l))), F).
      apply nested_close; [exact IH|].
      rewrite !(count_perm _ _ _ (isort_perm l)). exact L.
    - destruct (ins_split x (isort l)) as (a & b & E & -> & _).
      apply nested_insert; [rewrite <- E; exact IH|exact C].
  Qed.
End Nested.
