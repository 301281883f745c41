(** The queue refines the specification of [SpecQueue]. *)
From Verif Require Import Queue SpecQueue BaseFacts.
From Coq Require Import Permutation Lia Sorting.Sorted.

Section Facts.
  Variable T : Type.
  Variable cmp : T -> T -> comparison.
  Hypothesis order : total_order T cmp.
  Notation lt := (q_lt T cmp).

  Lemma cmp_opp a b : cmp b a = CompOpp (cmp a b).
  Proof. apply order. Qed.
  Lemma cmp_trans a b c : cmp a b <> Gt -> cmp b c <> Gt -> cmp a c <> Gt.
  Proof. apply order. Qed.
  Lemma cmp_eq_trans a b c : cmp a b = Eq -> cmp b c = Eq -> cmp a c = Eq.
  Proof.
    intros H K.
    pose proof (cmp_trans a b c) as X. pose proof (cmp_trans c b a) as Y.
    rewrite (cmp_opp b c), (cmp_opp a b), H, K in Y. rewrite H, K in X.
    rewrite (cmp_opp a c) in Y.
    destruct (cmp a c); [reflexivity| |]; cbn in Y; exfalso.
    - apply Y; congruence.
    - apply X; congruence.
  Qed.

  (** Everything in [l] is at least [m]. *)
  Definition least (m : nat * T) (l : list (nat * T)) : Prop := forall y, In y l -> lt y m = false.

  Lemma lt_asym_trans a b c : lt b a = false -> lt c b = false -> lt c a = false.
  Proof.
    unfold q_lt.
    pose proof (cmp_trans (snd a) (snd b) (snd c)) as X.
    rewrite (cmp_opp (snd a) (snd b)), (cmp_opp (snd b) (snd c)), (cmp_opp (snd a) (snd c)).
    destruct (cmp (snd a) (snd b)) eqn:A, (cmp (snd b) (snd c)) eqn:B; cbn; try discriminate;
      intros H K; try (apply Nat.ltb_ge in H); try (apply Nat.ltb_ge in K);
      destruct (cmp (snd a) (snd c)) eqn:C; cbn; try reflexivity;
      try (exfalso; apply X; congruence).
    - apply Nat.ltb_ge. lia.
    - exfalso. pose proof (cmp_trans (snd c) (snd a) (snd b)) as Y.
      rewrite (cmp_opp (snd a) (snd c)), C, (cmp_opp (snd b) (snd c)), B in Y. cbn in Y.
      apply Y; congruence.
    - exfalso. pose proof (cmp_trans (snd b) (snd c) (snd a)) as Y.
      rewrite (cmp_opp (snd a) (snd c)), C, (cmp_opp (snd a) (snd b)), A, B in Y. cbn in Y.
      apply Y; congruence.
    - exfalso. pose proof (cmp_trans (snd b) (snd c) (snd a)) as Y.
      rewrite (cmp_opp (snd a) (snd c)), C, (cmp_opp (snd a) (snd b)), A, B in Y. cbn in Y.
      apply Y; congruence.
  Qed.

  Lemma lt_irrefl_false a b : lt a b = true -> lt b a = false.
  Proof.
    unfold q_lt. rewrite (cmp_opp (snd a) (snd b)).
    destruct (cmp (snd a) (snd b)); cbn; try discriminate; try reflexivity.
    intros H. apply Nat.ltb_lt in H. apply Nat.ltb_ge. lia.
  Qed.

  Lemma cmp_refl a : cmp a a = Eq.
  Proof. pose proof (cmp_opp a a) as H. destruct (cmp a a); cbn in H; congruence. Qed.

  Lemma extract_spec l : forall x m r, extract T cmp x l = (m, r) ->
    Permutation (x :: l) (m :: r) /\ least m (x :: l).
  Proof.
    induction l as [|y l IH]; cbn [extract]; intros x m r E.
    - injection E as <- <-. split; [reflexivity|].
      intros z [<-|[]]. unfold q_lt. rewrite cmp_refl. apply Nat.ltb_irrefl.
    - destruct (extract T cmp y l) as [m' r'] eqn:X.
      destruct (IH y m' r' X) as [P L].
      destruct (lt m' x) eqn:E'.
      + injection E as <- <-. split.
        * rewrite P. apply perm_swap.
        * intros z [<-|Hz]; [exact (lt_irrefl_false _ _ E')|exact (L z Hz)].
      + injection E as <- <-. split; [reflexivity|].
        intros z [<-|Hz].
        * unfold q_lt. rewrite cmp_refl. apply Nat.ltb_irrefl.
        * exact (lt_asym_trans x m' z E' (L z Hz)).
  Qed.

  (** The heap holds the pending items with increasing marks. *)
  Definition holds (q : queue T) (pending : list T) : Prop :=
    exists marked, Permutation (q_heap q) marked /\ map snd marked = pending /\
      StronglySorted Nat.lt (map fst marked) /\ Forall (fun n => n <= q_inc q) (map fst marked).

  Lemma holds_new : holds q_new [].
  Proof. exists []. repeat split; constructor. Qed.

  Lemma sorted_snoc l n : StronglySorted Nat.lt l -> Forall (fun k => k < n) l ->
    StronglySorted Nat.lt (l ++ [n]).
  Proof.
    induction 1 as [|a l S IH F]; cbn; intros H.
    - constructor; constructor.
    - inversion H; subst. constructor; [auto|].
      apply Forall_app; split; [exact F|]. constructor; [assumption|constructor].
  Qed.

  Lemma holds_push q l x : holds q l -> holds (q_push q x) (l ++ [x]).
  Proof.
    intros (mk & P & <- & S & B). exists (mk ++ [(Datatypes.S (q_inc q), x)]). cbn.
    repeat split.
    - apply Permutation_app_tail, P.
    - apply map_app.
    - rewrite map_app. apply sorted_snoc; [exact S|].
      eapply Forall_impl; [|exact B]. cbn; intros; lia.
    - rewrite map_app. apply Forall_app; split; [|repeat constructor].
      eapply Forall_impl; [|exact B]. cbn; intros; lia.
  Qed.

  Lemma sorted_app_inv (a b : list nat) n : StronglySorted Nat.lt (a ++ n :: b) ->
    StronglySorted Nat.lt (a ++ b) /\ Forall (fun k => k < n) a /\ Forall (fun k => n < k) b.
  Proof.
    induction a as [|x a IH]; cbn; intros H; inversion H as [|? ? S F]; subst.
    - repeat split; auto.
    - destruct (IH S) as (A & B & C). apply Forall_app in F as [F1 F2]. inversion F2; subst.
      repeat split; auto. constructor; auto. apply Forall_app; auto.
  Qed.

  Lemma holds_pop q l : holds q l ->
    match q_pop cmp q with
    | (Some x, q') => exists rest, takes T cmp l x rest /\ holds q' rest
    | (None, q') => l = [] /\ q' = q
    end.
  Proof.
    intros (mk & P & <- & S & B). unfold q_pop.
    destruct (q_heap q) as [|x h] eqn:Hq.
    - apply Permutation_nil in P. subst. auto.
    - destruct (extract T cmp x h) as [m r] eqn:E.
      destruct (extract_spec _ _ _ _ E) as [PE L].
      assert (I : In m mk).
      { eapply Permutation_in; [exact P|]. eapply Permutation_in; [symmetry; exact PE|].
        left; reflexivity. }
      apply in_split in I as (a & b & ->).
      assert (PR : Permutation r (a ++ b)).
      { apply Permutation_cons_app_inv with (a := m). rewrite <- PE. exact P. }
      rewrite map_app in S, B. cbn [map] in S, B.
      destruct (sorted_app_inv _ _ _ S) as (S' & FA & FB).
      exists (map snd (a ++ b)). split.
      + exists (map snd a), (map snd b). rewrite !map_app. cbn [map].
        split; [reflexivity|]. split; [reflexivity|].
        assert (LE : forall y, In y (a ++ m :: b) -> lt y m = false).
        { intros y Hy. apply L. eapply Permutation_in; [symmetry; exact P|exact Hy]. }
        split; intros y Hy; apply in_map_iff in Hy as ((k, z) & <- & Hz); cbn [snd].
        * specialize (LE (k, z)). rewrite in_app_iff in LE. specialize (LE (or_introl Hz)).
          unfold q_lt in LE. cbn [snd fst] in LE. rewrite (cmp_opp (snd m) z) in LE.
          destruct (cmp (snd m) z) eqn:C; cbn in LE; [|reflexivity|discriminate].
          apply Nat.ltb_ge in LE. rewrite Forall_forall in FA.
          specialize (FA k (in_map fst _ _ Hz)). cbn in FA. lia.
        * specialize (LE (k, z)). rewrite in_app_iff in LE.
          specialize (LE (or_intror (or_intror Hz))).
          unfold q_lt in LE. cbn [snd fst] in LE. rewrite (cmp_opp (snd m) z) in LE.
          destruct (cmp (snd m) z) eqn:C; cbn in LE; congruence.
      + exists (a ++ b). cbn [q_heap q_inc]. rewrite !map_app. repeat split; try assumption.
        apply Forall_app in B as [B1 B2]. inversion B2; subst. apply Forall_app; auto.
  Qed.

  Lemma sort_entries_perm n : forall l acc, List.length l <= n ->
    Permutation (sort_entries T cmp n l acc) (l ++ acc).
  Proof.
    induction n as [|n IH]; intros [|x l] acc H; cbn [sort_entries]; try reflexivity.
    - cbn in H; lia.
    - destruct (extract T cmp x l) as [m r] eqn:E.
      destruct (extract_spec _ _ _ _ E) as [P _].
      rewrite IH.
      + rewrite <- Permutation_middle.
        change (Permutation ((m :: r) ++ acc) ((x :: l) ++ acc)).
        apply Permutation_app_tail. symmetry. exact P.
      + apply Permutation_length in P. cbn in P, H. lia.
  Qed.

  Lemma holds_sort q l : holds q l -> holds (q_sort T cmp q) l.
  Proof.
    intros (mk & P & E & S & B). exists mk. cbn. repeat split; auto.
    rewrite sort_entries_perm, app_nil_r by reflexivity. exact P.
  Qed.

  (** What a history answers. *)
  Fixpoint play (q : queue T) (ops : list (op T)) : list (option T) * queue T :=
    match ops with
    | [] => ([], q)
    | Push x :: r => play (q_push q x) r
    | Sort :: r => play (q_sort T cmp q) r
    | Pop :: r => let (a, q') := q_pop cmp q in
                  let (out, q'') := play q' r in (a :: out, q'')
    end.

  Lemma holds_len q l : holds q l -> q_len q = List.length l.
  Proof.
    intros (mk & P & <- & _). unfold q_len. rewrite (Permutation_length P), map_length. reflexivity.
  Qed.

  Lemma play_holds ops : forall q l, holds q l ->
    exists l', answers T cmp l ops (fst (play q ops)) l' /\ holds (snd (play q ops)) l'.
  Proof.
    induction ops as [|[x| |] ops IH]; intros q l H; cbn [play].
    - exists l. split; [constructor|exact H].
    - destruct (IH _ _ (holds_push _ _ x H)) as (l' & A & B). exists l'. split; [|exact B].
      constructor; exact A.
    - pose proof (holds_pop _ _ H) as X. destruct (q_pop cmp q) as [[x|] q'].
      + destruct X as (rest & Tk & H'). destruct (IH _ _ H') as (l' & A & B).
        exists l'. destruct (play q' ops) as [out q'']. cbn in *. split; [|exact B].
        eapply answers_pop; eauto.
      + destruct X as (-> & ->). destruct (IH _ _ H) as (l' & A & B).
        exists l'. destruct (play q ops) as [out q'']. cbn in *. split; [|exact B].
        constructor; exact A.
    - destruct (IH _ _ (holds_sort _ _ H)) as (l' & A & B). exists l'. split; [|exact B].
      constructor; exact A.
  Qed.

  Lemma queue_answers ops :
    exists l, answers T cmp [] ops (fst (play q_new ops)) l /\
      q_len (snd (play q_new ops)) = List.length l.
  Proof.
    destruct (play_holds ops _ _ holds_new) as (l & A & H). exists l.
    split; [exact A|exact (holds_len _ _ H)].
  Qed.

  Lemma takes_len l x rest : takes T cmp l x rest -> List.length l = S (List.length rest).
  Proof. intros (a & b & -> & -> & _). rewrite !app_length. cbn. lia. Qed.

  Lemma drain_sorts n : forall q l, holds q l -> List.length l = n ->
    stable_sort T cmp l (q_drain T cmp n q).
  Proof.
    induction n as [|n IH]; intros q l H E; cbn [q_drain].
    - apply length_zero_iff_nil in E. subst. constructor.
    - pose proof (holds_pop _ _ H) as X. destruct (q_pop cmp q) as [[x|] q'].
      + destruct X as (rest & Tk & H'). econstructor; [exact Tk|].
        apply IH; [exact H'|]. apply takes_len in Tk. lia.
      + destruct X as (-> & _). discriminate.
  Qed.

  Lemma fold_push l : forall q p, holds q p -> holds (fold_left q_push l q) (p ++ l).
  Proof.
    induction l as [|x l IH]; intros q p H; cbn [fold_left].
    - rewrite app_nil_r; exact H.
    - replace (p ++ x :: l) with ((p ++ [x]) ++ l) by (rewrite <- app_assoc; reflexivity).
      apply IH, holds_push, H.
  Qed.

  Lemma queue_sorts l : stable_sort T cmp l (q_sorted T cmp (q_from T l)).
  Proof.
    pose proof (fold_push l _ _ holds_new) as H. cbn [app] in H.
    unfold q_sorted, q_from. rewrite (holds_len _ _ H). apply drain_sorts; [exact H|reflexivity].
  Qed.

  (** The specification determines the answers. *)
  Lemma takes_unique l : forall x r x' r', takes T cmp l x r -> takes T cmp l x' r' ->
    x = x' /\ r = r'.
  Proof.
    intros x r x' r' (a & b & E & -> & L & G) (a' & b' & E' & -> & L' & G').
    rewrite E in E'. clear E l.
    revert a' E' L'. induction a as [|y a IH]; intros [|y' a'] E' L'; cbn in E'.
    - injection E' as <- <-. auto.
    - injection E' as <- ->. exfalso.
      specialize (L' x (or_introl eq_refl)).
      apply (G x'); [apply in_elt|].
      rewrite (cmp_opp x' x), L'. reflexivity.
    - injection E' as -> <-. exfalso.
      specialize (L x' (or_introl eq_refl)).
      apply (G' x); [apply in_elt|]. rewrite (cmp_opp x x'), L. reflexivity.
    - injection E' as <- E'.
      destruct (IH (fun z h => L z (or_intror h)) a' E' (fun z h => L' z (or_intror h)))
        as [-> IH']. cbn. rewrite IH'. auto.
  Qed.

  Lemma answers_unique l ops out l' : answers T cmp l ops out l' ->
    forall out2 l2, answers T cmp l ops out2 l2 -> out2 = out /\ l2 = l'.
  Proof.
    induction 1; intros out2 l2 A; inversion A; subst; auto.
    - match goal with X : takes _ _ l x rest, Y : takes _ _ l ?y ?r |- _ =>
        destruct (takes_unique l _ _ _ _ X Y) as [<- <-] end.
      match goal with X : answers _ _ rest _ _ l2 |- _ => apply IHanswers in X as [-> ->] end. auto.
    - match goal with X : takes _ _ [] _ _ |- _ => destruct X as ([|? ?] & ? & ? & _); discriminate end.
    - match goal with X : takes _ _ [] _ _ |- _ => destruct X as ([|? ?] & ? & ? & _); discriminate end.
    - match goal with X : answers _ _ [] _ _ l2 |- _ => apply IHanswers in X as [-> ->] end. auto.
  Qed.
End Facts.
