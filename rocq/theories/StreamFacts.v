(** What a consumer of a borrowed text observes. *)
From Verif Require Export Runs PeekFacts.
From Coq Require Import Lia ZifyBool ZifyN ZifyNat Permutation.
Open Scope nat_scope.

(** ** The sorted history *)
Lemma isort_in x l : In x (isort l) <-> In x l.
Proof.
  split; apply Permutation_in; [apply isort_perm|symmetry; apply isort_perm].
Qed.
Lemma count_none f l : count f l = 0 -> forall x, In x l -> f (e_marker x) = false.
Proof.
  induction l as [|y l IH]; [intros _ ? []|]. rewrite count_cons. intros C x [->|I].
  - destruct (f (e_marker x)); [lia|reflexivity].
  - apply IH; [lia|exact I].
Qed.
Lemma isort_framed l : count framing l = 0 ->
  isort (mkEntry (Tok TStreamStart) 0 :: l) = mkEntry (Tok TStreamStart) 0 :: isort l.
Proof.
  intros _. apply (isort_app [_] l 0); [repeat constructor|]. apply Forall_forall. intros. lia.
Qed.
Lemma isort_last l x : Forall (fun y => e_read y <= e_read x) l -> isort (l ++ [x]) = isort l ++ [x].
Proof.
  intros F. rewrite isort_snoc. apply ins_last. apply (Permutation_Forall (Permutation_sym (isort_perm l))), F.
Qed.

(** The history has the end of the stream in it exactly when the scanner is done. *)
Lemma framed_end s h x : framed s h -> In x h -> e_marker x = MStreamEnd ->
  s = SDone /\ exists l, isort h = l ++ [x] /\ forall y, In y l -> e_marker y <> MStreamEnd.
Proof.
  destruct s; cbn [framed].
  - intros ->. intros [].
  - intros (l & -> & C) [<-|I] M; [discriminate|]. apply (count_none _ _ C) in I. rewrite M in I. discriminate.
  - intros (l & e & -> & C & W & F) I M. split; [reflexivity|].
    assert (x = e) as ->.
    { destruct I as [<-|I]; [discriminate|]. apply in_app_or in I as [I|[<-|[]]]; [|reflexivity].
      apply (count_none _ _ C) in I. rewrite M in I. discriminate. }
    exists (mkEntry (Tok TStreamStart) 0 :: isort l). split.
    + change (mkEntry (Tok TStreamStart) 0 :: l ++ [e]) with ((mkEntry (Tok TStreamStart) 0 :: l) ++ [e]).
      rewrite isort_last; [|constructor; [cbn; lia|exact F]]. rewrite isort_framed by exact C. reflexivity.
    + intros y [<-|Y]; [discriminate|]. apply (proj1 (isort_in _ _)) in Y. apply (count_none _ _ C) in Y.
      intros X. rewrite X in Y. discriminate.
Qed.

Lemma framed_start s h : framed s h -> isort h = [] \/
  exists l, isort h = mkEntry (Tok TStreamStart) 0 :: l /\ forall y, In y l -> e_marker y <> MStreamStart.
Proof.
  destruct s; cbn [framed].
  - intros ->. left. reflexivity.
  - intros (l & -> & C). right. exists (isort l). split; [apply isort_framed, C|].
    intros y Y. apply (proj1 (isort_in _ _)) in Y. apply (count_none _ _ C) in Y. intros X. rewrite X in Y. discriminate.
  - intros (l & e & -> & C & W & F). right. exists (isort l ++ [e]). split.
    + change (mkEntry (Tok TStreamStart) 0 :: l ++ [e]) with ((mkEntry (Tok TStreamStart) 0 :: l) ++ [e]).
      rewrite isort_last; [|constructor; [cbn; lia|exact F]]. rewrite isort_framed by exact C. reflexivity.
    + intros y Y. apply in_app_or in Y as [Y|[<-|[]]].
      * apply (proj1 (isort_in _ _)) in Y. apply (count_none _ _ C) in Y. intros X. rewrite X in Y. discriminate.
      * change (e_marker e) with (maybe_marker (e_wrap e)). rewrite W. discriminate.
Qed.

(** ** Schedules *)
Lemma consumes_app r s1 s2 : consumes r (s1 ++ s2) =
  match consumes r s1 with
  | (l, Ok r') => let (l2, x) := consumes r' s2 in (l ++ l2, x)
  | y => y
  end.
Proof.
  revert r. induction s1 as [|[] s1 IH]; intros r; cbn [app consumes].
  - destruct (consumes r s2); reflexivity.
  - destruct (reader_scan r) as [r' [a|e| |]]; [apply IH|reflexivity..].
  - destruct (q_pop entry_cmp (r_q r)) as [[e|] q]; rewrite IH;
      destruct (consumes _ s1) as [l [r'|x| |]]; try reflexivity; destruct (consumes r' s2); reflexivity.
Qed.
Lemma fills_app s1 s2 : fills (s1 ++ s2) = fills s1 + fills s2.
Proof. induction s1 as [|[] s1 IH]; cbn; lia. Qed.

Lemma prefix_comparable {A} (l1 l2 r1 r2 : list A) : l1 ++ r1 = l2 ++ r2 ->
  (exists r, l2 = l1 ++ r) \/ (exists r, l1 = l2 ++ r).
Proof.
  intros E. apply app_eq_app in E as (r & [[-> _]|[-> _]]); eauto.
Qed.

(** ** Specifications of texts *)
Lemma no_verbatim_exactly t : no_verbatim_tag t -> exactly t.
Proof.
  intros H n. unfold exact. destruct (starts_with (skipn n t) (bytes "!<")) eqn:S; [|reflexivity].
  apply starts_with_iff in S as (r & E). exfalso. apply (H (firstn n t) r). rewrite <- E. symmetry. apply firstn_skipn.
Qed.

Section Text.
  Variables (t : str) (o : flags).
  Hypothesis V : valid t.

  Lemma stream_order s l x : consumes (open t o) s = (l, x) ->
    in_order l /\ Forall (fun e => e_read e <= List.length t) l.
  Proof.
    intros E. pose proof (consumes_history o t s l x V E) as H.
    destruct (calls (no_extend o) t (fills s)) as [[h sc] r]. destruct H as ((rest & H) & (sc' & (b & I & _) & _) & _).
    pose proof (isort_ordered h) as O. rewrite H in O. apply ordered_app in O as (O & _).
    split.
    - intros a y b' z c ->. apply ordered_app in O as (_ & O & _). inversion O as [|? ? F _]; subst.
      rewrite Forall_forall in F. apply F. apply in_or_app. right. left. reflexivity.
    - assert (M : Forall (fun e => e_read e <= List.length t) (isort h)).
      { apply (Permutation_Forall (Permutation_sym (isort_perm h))).
        eapply Forall_impl; [|apply (i_marks _ _ _ _ _ I)]. pose proof (i_pos _ _ _ _ _ I). cbn. lia. }
      rewrite H in M. apply Forall_app in M. tauto.
  Qed.

  Lemma histories_comparable j k :
    (exists l, isort (fst (fst (calls (no_extend o) t k))) = isort (fst (fst (calls (no_extend o) t j))) ++ l) \/
    (exists l, isort (fst (fst (calls (no_extend o) t j))) = isort (fst (fst (calls (no_extend o) t k))) ++ l).
  Proof.
    destruct (Nat.le_ge_cases j k) as [L|L].
    - left. replace k with (j + (k - j)) by lia. apply calls_prefix; [reflexivity|exact V].
    - right. replace j with (k + (j - k)) by lia. apply calls_prefix; [reflexivity|exact V].
  Qed.

  Lemma stream_schedules s1 l1 x1 s2 l2 x2 :
    consumes (open t o) s1 = (l1, x1) -> consumes (open t o) s2 = (l2, x2) ->
    ((exists r, l2 = l1 ++ r) \/ (exists r, l1 = l2 ++ r)) /\
    ((forall r, x1 <> Ok r) -> (forall r, x2 <> Ok r) -> x1 = x2).
  Proof.
    intros E1 E2. pose proof (consumes_history o t s1 l1 x1 V E1) as H1.
    pose proof (consumes_history o t s2 l2 x2 V E2) as H2.
    pose proof (histories_comparable (fills s1) (fills s2)) as C.
    assert (ST : forall j k, (forall a, snd (calls (no_extend o) t j) <> Ok a) ->
              (forall a, snd (calls (no_extend o) t k) <> Ok a) -> calls (no_extend o) t j = calls (no_extend o) t k).
    { intros j k NJ NK. destruct (Nat.le_ge_cases j k) as [L|L].
      - replace k with (j + (k - j)) by lia. symmetry. apply calls_stop, NJ.
      - replace j with (k + (j - k)) by lia. apply calls_stop, NK. }
    specialize (ST (fills s1) (fills s2)).
    destruct (calls (no_extend o) t (fills s1)) as [[h1 sc1] r1].
    destruct (calls (no_extend o) t (fills s2)) as [[h2 sc2] r2].
    cbn [fst snd] in *. destruct H1 as ((p1 & H1) & _ & R1). destruct H2 as ((p2 & H2) & _ & R2).
    split.
    - destruct C as [(p & C)|(p & C)]; rewrite H1, H2, <- app_assoc in C; symmetry in C.
      + apply prefix_comparable in C. tauto.
      + apply prefix_comparable in C. tauto.
    - intros N1 N2. destruct r1 as [a1|e1| |]; [destruct R1 as (r & -> & _); destruct (N1 r eq_refl)| | |destruct R1].
      all: destruct r2 as [a2|e2| |]; [destruct R2 as (r & -> & _); destruct (N2 r eq_refl)| | |destruct R2].
      all: specialize (ST ltac:(discriminate) ltac:(discriminate)); destruct R1 as [-> _]; destruct R2 as [-> _]; congruence.
  Qed.

  (** A scanner that is done stays so. *)
  Lemma calls_all_done k j : snd (calls (no_extend o) t k) = Ok tt ->
    sc_state (snd (fst (calls (no_extend o) t k))) = SDone ->
    (exists l, isort (fst (fst (calls (no_extend o) t k))) = isort (fst (fst (calls (no_extend o) t j))) ++ l) /\
    snd (calls (no_extend o) t j) = Ok tt.
  Proof.
    intros E D. destruct (Nat.le_ge_cases j k) as [L|L].
    - split; [replace k with (j + (k - j)) by lia; apply calls_prefix; [reflexivity|exact V]|].
      destruct (snd (calls (no_extend o) t j)) as [[]|e| |] eqn:X; [reflexivity|exfalso..];
        (assert (Y : forall a, snd (calls (no_extend o) t j) <> Ok a) by (intros a; congruence);
         pose proof (calls_stop _ _ (k - j) _ Y) as Z; replace (j + (k - j)) with k in Z by lia; congruence).
    - replace j with (k + (j - k)) by lia. rewrite calls_done; [|reflexivity|exact V|exact E|exact D].
      split; [exists []; rewrite app_nil_r; reflexivity|exact E].
  Qed.

  Lemma stream_complete s1 l1 r1 s2 l2 x2 :
    consumes (open t o) s1 = (l1, Ok r1) -> reader_exhausted r1 = true ->
    consumes (open t o) s2 = (l2, x2) ->
    (exists r, l1 = l2 ++ r) /\ exists r2, x2 = Ok r2.
  Proof.
    intros E1 X E2. pose proof (consumes_history o t s1 l1 _ V E1) as H1.
    pose proof (consumes_history o t s2 l2 x2 V E2) as H2.
    pose proof (calls_all_done (fills s1) (fills s2)) as D.
    destruct (calls (no_extend o) t (fills s1)) as [[h1 sc1] [a|e| |]] eqn:C1;
      destruct H1 as (_ & _ & H1); [|destruct H1; discriminate..|destruct H1].
    destruct H1 as (r' & [= <-] & ST & G). destruct ST as (_ & _ & RX & h & rest & C1' & HQ & HS).
    rewrite C1 in C1'. assert (h = h1 /\ r_sc r1 = sc1) as [-> EQ] by (split; congruence).
    apply andb_prop in X as [X1 X2]. apply Nat.eqb_eq in X2.
    rewrite (holds_len entry _ _ HQ) in X2. destruct rest; [|discriminate]. cbn in HS. rewrite app_nil_r in HS.
    cbn [fst snd] in D. destruct a. rewrite EQ in RX. specialize (D eq_refl (RX X1)).
    destruct (calls (no_extend o) t (fills s2)) as [[h2 sc2] r2]. cbn [fst snd] in D.
    destruct D as [(p & D) ->]. destruct H2 as ((p2 & H2) & _ & (r2 & -> & _)).
    split; [|eauto]. rewrite HS, H2, <- app_assoc in D. eauto.
  Qed.

  Lemma stream_start s l x : consumes (open t o) s = (l, x) ->
    l = [] \/ exists l', l = mkEntry (Tok TStreamStart) 0 :: l' /\ forall y, In y l' -> e_marker y <> MStreamStart.
  Proof.
    intros E. pose proof (consumes_history o t s l x V E) as H.
    destruct (calls (no_extend o) t (fills s)) as [[h sc] r]. destruct H as ((rest & H) & (sc' & (b & I & _) & _) & _).
    destruct l as [|e l]; [auto|right]. destruct (framed_start _ _ (i_frame _ _ _ _ _ I)) as [N|(l' & N & F)].
    - rewrite N in H. discriminate.
    - rewrite N in H. cbn in H. injection H as <- H. exists l. split; [reflexivity|].
      intros y Y. apply F. rewrite H. apply in_or_app. auto.
  Qed.

  (** With the end of the stream everything has been delivered. *)
  Lemma stream_last s l x e : consumes (open t o) s = (l, x) -> In e l -> e_marker e = MStreamEnd ->
    exists l' r sc b, l = l' ++ [e] /\ (forall y, In y l' -> e_marker y <> MStreamEnd) /\ x = Ok r /\
      inv (no_extend o) t (fst (fst (calls (no_extend o) t (fills s)))) b sc /\ sc_state sc = SDone /\
      isort (fst (fst (calls (no_extend o) t (fills s)))) = l /\
      calls (no_extend o) t (fills s) = (fst (fst (calls (no_extend o) t (fills s))), sc, Ok tt).
  Proof.
    intros E IN M. pose proof (consumes_history o t s l x V E) as H.
    destruct (calls (no_extend o) t (fills s)) as [[h sc] r] eqn:C. cbn [fst].
    destruct H as ((rest & H) & (sc' & (b & I & G) & ND) & R).
    assert (INH : In e h) by (apply isort_in; rewrite H; apply in_or_app; auto).
    destruct (framed_end _ _ e (i_frame _ _ _ _ _ I) INH M) as (D & l' & EH & U).
    assert (X : rest = [] /\ l = l' ++ [e]).
    { destruct (exists_last (l := l)) as (l0 & z & ->); [intros ->; destruct IN|].
      rewrite <- app_assoc in H. cbn in H. destruct rest as [|w rest] using rev_ind.
      - split; [reflexivity|]. rewrite EH in H. apply app_inj_tail in H as [-> ->]. reflexivity.
      - exfalso. rewrite EH in H. change (l0 ++ z :: rest ++ [w]) with (l0 ++ (z :: rest) ++ [w]) in H.
        rewrite app_assoc in H. apply app_inj_tail in H as [H _].
        apply (U e); [|exact M]. rewrite H. apply in_app_or in IN as [IN|[<-|[]]]; apply in_or_app; [auto|right; left; reflexivity]. }
    destruct X as [-> EL]. rewrite app_nil_r in H.
    destruct r as [[]|er| |]; [|destruct (ND ltac:(discriminate) D)..].
    destruct R as (r' & -> & ST & (b0 & I0 & _)).
    assert (D0 : sc_state sc = SDone).
    { apply (framed_end _ _ e (i_frame _ _ _ _ _ I0) INH M). }
    exists l', r', sc, b0. auto 10.
  Qed.

  Lemma stream_end s s' l x e : consumes (open t o) s = (l, x) -> In e l -> e_marker e = MStreamEnd ->
    (exists l', l = l' ++ [e] /\ forall y, In y l' -> e_marker y <> MStreamEnd) /\
    exists r, consumes (open t o) (s ++ s') = (l, Ok r).
  Proof.
    intros E IN M. destruct (stream_last _ _ _ _ E IN M) as (l' & r & sc & b & EL & U & -> & I & D & IS & C).
    split; [eauto|]. rewrite consumes_app, E. destruct (consumes r s') as [l2 x2] eqn:E2.
    assert (EA : consumes (open t o) (s ++ s') = (l ++ l2, x2)) by (rewrite consumes_app, E, E2; reflexivity).
    pose proof (consumes_history o t _ _ _ V EA) as H. rewrite fills_app in H.
    rewrite calls_done in H; [|reflexivity|exact V|rewrite C; reflexivity|rewrite C; exact D].
    rewrite C in H. destruct H as ((rest & H) & _ & (r' & -> & _)).
    assert (l2 = []) as ->.
    { rewrite IS in H. rewrite <- app_assoc in H. rewrite <- (app_nil_r l) in H at 1. apply app_inv_head in H.
      symmetry in H. apply app_eq_nil in H. tauto. }
    rewrite app_nil_r. eauto.
  Qed.

  Lemma stream_nested s l x : consumes (open t o) s = (l, x) ->
    nested block_open block_close l /\ nested flow_open flow_close l.
  Proof.
    intros E. pose proof (consumes_history o t s l x V E) as H.
    destruct (calls (no_extend o) t (fills s)) as [[h sc] r]. destruct H as ((rest & H) & (sc' & (b & I & _) & _) & _).
    split; eapply nested_prefix; rewrite <- H; apply closers_isort; apply I.
  Qed.

  Lemma stream_balanced s l x e : consumes (open t o) s = (l, x) -> In e l -> e_marker e = MStreamEnd ->
    count flow_open l = count flow_close l -> count block_open l = count block_close l.
  Proof.
    intros E IN M F. destruct (stream_last _ _ _ _ E IN M) as (l' & r & sc & b & EL & U & -> & I & D & IS & C).
    set (h := fst (fst (calls (no_extend o) t (fills s)))) in *.
    rewrite <- IS, !(count_perm _ _ _ (isort_perm h)) in *.
    pose proof (i_done _ _ _ _ _ I D) as [_ DN]. pose proof (i_flow _ _ _ _ _ I). pose proof (i_block _ _ _ _ _ I) as B.
    rewrite DN in B by lia. cbn in B. lia.
  Qed.

  (** Tokens scanned and not yet taken. *)
  Lemma stage_all k pops r : stage (no_extend o) t k pops r -> good (no_extend o) t (fst (fst (calls (no_extend o) t k))) (r_sc r) ->
    exists b h, inv (no_extend o) t h b (r_sc r) /\ stands t b (r_sc r) /\
      Permutation h (pops ++ pending r) /\ settled (r_sc r) /\ begun (r_sc r).
  Proof.
    intros (_ & _ & _ & h & rest & C & HQ & HS) (b & I & G & B & S). rewrite C in I. cbn in I.
    exists b, h. split; [exact I|]. split; [exact G|]. split; [|auto].
    rewrite <- (isort_perm h), HS. apply Permutation_app_head. rewrite isort_perm.
    destruct HQ as (mk & P & <- & _). unfold pending. symmetry. apply Permutation_map, P.
  Qed.

  Lemma stream_stage s l r : consumes (open t o) s = (l, Ok r) ->
    exists b h, inv (no_extend o) t h b (r_sc r) /\ stands t b (r_sc r) /\
      Permutation h (l ++ pending r) /\ settled (r_sc r) /\ begun (r_sc r) /\ r_in r = Borrow t /\ no_extend (r_opts r) = no_extend o.
  Proof.
    intros E. pose proof (consumes_history o t s l _ V E) as H.
    destruct (calls (no_extend o) t (fills s)) as [[h sc] [a|e| |]] eqn:C; destruct H as (_ & _ & H); [|destruct H; discriminate..|destruct H].
    destruct H as (r' & [= <-] & ST & G).
    assert (r_sc r = sc) as EQ.
    { destruct ST as (_ & _ & _ & h' & rest & C' & _). congruence. }
    destruct (stage_all _ _ _ ST) as (b & h' & P1 & P2 & P3 & P4 & P5); [rewrite C, EQ; exact G|].
    exists b, h'. destruct ST as (RI & RO & _). auto 10.
  Qed.

  Lemma stream_depth s l r : consumes (open t o) s = (l, Ok r) ->
    c_flow (sc_cxt (r_sc r)) + count flow_close (l ++ pending r) = count flow_open (l ++ pending r).
  Proof.
    intros E. destruct (stream_stage _ _ _ E) as (b & h & I & _ & P & _).
    rewrite <- !(count_perm _ _ _ P). pose proof (i_flow _ _ _ _ _ I). lia.
  Qed.

  Lemma stream_fuel s l x : consumes (open t o) s = (l, x) -> x <> Fuel /\ (safe (no_extend o) t -> x <> Panic) /\ x <> Err (RScan Extend).
  Proof.
    intros E. pose proof (consumes_history o t s l x V E) as H.
    destruct (calls (no_extend o) t (fills s)) as [[h sc] [a|e| |]]; destruct H as (_ & _ & H); [| | |destruct H].
    - destruct H as (r & -> & _). repeat split; discriminate.
    - destruct H as [-> H]. repeat split; try discriminate. congruence.
    - destruct H as [-> H]. repeat split; try discriminate. tauto.
  Qed.

  Lemma stream_length s l x : consumes (open t o) s = (l, x) -> List.length l <= 6 * List.length t + 4.
  Proof.
    intros E. pose proof (consumes_history o t s l x V E) as H.
    destruct (calls (no_extend o) t (fills s)) as [[h sc] r]. destruct H as ((rest & H) & (sc' & (b & I & _) & _) & _).
    pose proof (Permutation_length (isort_perm h)) as L. rewrite H, app_length in L.
    assert (C : List.length h = count not_close h + count block_close h /\ count block_open h <= count not_close h).
    { clear. induction h as [|y h [IH IH2]]; [split; cbn; lia|]. rewrite !count_cons. cbn [List.length].
      destruct (e_marker y); cbn; lia. }
    pose proof (i_block _ _ _ _ _ I). pose proof (i_count _ _ _ _ _ I) as CN.
    assert (phase (sc_state sc') <= 2) by (destruct (sc_state sc'); cbn; lia). lia.
  Qed.

  Lemma calls_progress k : match calls (no_extend o) t k with
    | (h, sc, Ok _) => sc_state sc = SDone \/ exists b, inv (no_extend o) t h b sc /\ stands t b sc /\ begun sc /\
        left_to_do b sc + k <= List.length t + 2
    | _ => True end.
  Proof.
    induction k as [|k IH]; cbn [calls].
    - right. exists t. destruct (good_start (no_extend o) t V) as (b & I & G & B & _).
      assert (b = t) as -> by (unfold stands, get_from in G; cbn in G; congruence).
      split; [exact I|]. split; [exact G|]. split; [exact B|]. unfold left_to_do. cbn. lia.
    - destruct (calls (no_extend o) t k) as [[h sc] [a|e| |]]; auto.
      destruct IH as [D|(b & I & G & B & L)].
      + rewrite batch_done by exact D. left. exact D.
      + pose proof (batch_spec (no_extend o) t h b sc eq_refl I G B) as S.
        destruct (batch (no_extend o) t sc) as [[es sc'] [a'|e| |]]; auto. destruct S as [_ (b' & I' & G' & B' & _ & D & _ & _ & L' & _)].
        destruct es as [|x es]; [left; auto|]. right. exists b'. specialize (L' ltac:(discriminate)).
        split; [exact I'|]. split; [exact G'|]. split; [exact B'|]. lia.
  Qed.

  Lemma stream_ends s l r : consumes (open t o) s = (l, Ok r) -> List.length t + 3 <= fills s ->
    exists e, In e (l ++ pending r) /\ e_marker e = MStreamEnd.
  Proof.
    intros E L. pose proof (consumes_history o t s l _ V E) as H. pose proof (calls_progress (fills s)) as P.
    destruct (stream_stage _ _ _ E) as (b & h & I & _ & PM & _).
    destruct (calls (no_extend o) t (fills s)) as [[h1 sc] [a|e| |]] eqn:C; destruct H as (_ & _ & H); [|destruct H; discriminate..|destruct H].
    destruct H as (r' & [= <-] & ST & _).
    assert (D : sc_state (r_sc r) = SDone).
    { destruct ST as (_ & _ & _ & h' & rest & C' & _). assert (sc = r_sc r) as <- by congruence.
      destruct P as [D|(b' & _ & _ & _ & P)]; [exact D|lia]. }
    pose proof (i_frame _ _ _ _ _ I) as F. rewrite D in F. cbn in F. destruct F as (l0 & e & -> & _ & W & _).
    exists e. split; [|unfold e_marker; rewrite W; reflexivity].
    eapply Permutation_in; [exact PM|]. right. apply in_or_app. right. left. reflexivity.
  Qed.

  Lemma stream_exact s l r : consumes (open t o) s = (l, Ok r) -> exactly t ->
    exists b, get_from t (sc_offset (r_sc r)) = Some b /\ tracks o t stats0 b (sc_st (r_sc r)).
  Proof.
    intros E X. destruct (stream_stage _ _ _ E) as (b & h & I & G & _). exists b. split; [exact G|apply I, X].
  Qed.

  Lemma stream_position s l r : consumes (open t o) s = (l, Ok r) -> no_verbatim_tag t ->
    let st := sc_st (r_sc r) in
    lazy_mode o = false \/ sc_offset (r_sc r) < List.length t ->
    sread st = sc_offset (r_sc r) /\ position t (sread st) (slines st) (scol st).
  Proof.
    intros E NV st LZ. destruct (stream_exact _ _ _ E (no_verbatim_exactly _ NV)) as (b & G & T).
    assert (GB : b = skipn (sc_offset (r_sc r)) t /\ sc_offset (r_sc r) <= List.length t).
    { unfold get_from in G. destruct (is_boundary t (sc_offset (r_sc r))) eqn:B; [|discriminate].
      split; [congruence|apply boundary_le, B]. }
    destruct GB as [-> LE]. destruct T as [R|[Z NN]].
    - split; [|apply (reads_position t t stats0 _ st R); [reflexivity|cbn; lia|constructor]].
      apply reads_len in R as (_ & RE & _). cbn in RE. rewrite skipn_length in RE. unfold st. lia.
    - destruct LZ as [LZ|LZ]; [congruence|]. exfalso. apply (f_equal (@List.length _)) in NN.
      rewrite skipn_length in NN. cbn in NN. lia.
  Qed.

  Lemma stream_keys s l x e : consumes (open t o) s = (l, x) -> In e l -> e_marker e = MKey ->
    exists n, (exactly t -> n = e_read e) /\ (explicit_key t n \/ implicit_key t n).
  Proof.
    intros E IN. pose proof (consumes_history o t s l x V E) as H.
    destruct (calls (no_extend o) t (fills s)) as [[h sc] r]. destruct H as ((rest & H) & (sc' & (b & I & _) & _) & _).
    pose proof (i_keyed _ _ _ _ _ I) as K. rewrite Forall_forall in K. apply K.
    apply isort_in. rewrite H. apply in_or_app. auto.
  Qed.

  Lemma stream_from s l x e : consumes (open t o) s = (l, x) -> In e l -> from_text (no_extend o) t e.
  Proof.
    intros E IN. pose proof (consumes_history o t s l x V E) as H.
    destruct (calls (no_extend o) t (fills s)) as [[h sc] r]. destruct H as ((rest & H) & (sc' & (b & I & _) & _) & _).
    pose proof (i_from _ _ _ _ _ I) as K. rewrite Forall_forall in K. apply K.
    apply isort_in. rewrite H. apply in_or_app. auto.
  Qed.
End Text.

(** ** Closing what was never opened *)
Lemma skips_det c s s1 : skips c s s1 -> forall s2, skips c s s2 -> s1 = s2.
Proof.
  assert (EX : forall s, is_blank s = true -> is_break s = true -> False).
  { intros s' B K. rewrite is_blank_not_break in K by exact B. discriminate. }
  assert (HB : forall s, at_is s 0 35 = true -> is_blank s = false /\ is_break s = false).
  { intros s' H. destruct (at_is_cons _ _ H) as (r & ->). split; reflexivity. }
  induction 1 as [s A B C|c|c s s' A S IH|c s s' A S IH|s s' A S IH|s s' NE A S IH]; intros s2 S2.
  - remember false as c eqn:EC. destruct S2 as [| |c s s2 X S2|c s s2 X S2|s s2 X S2|s s2 X1 X S2]; try congruence.
  - remember [] as e eqn:EE. destruct S2; subst; try congruence; try (unfold is_blank, is_break in *; discriminate).
  - destruct S2 as [| |c s s2 X S2|c s s2 X S2|s s2 X S2|s s2 X1 X S2]; try congruence; auto; exfalso; eauto.
    destruct (HB _ X). congruence.
  - destruct S2 as [| |c s s2 X S2|c s s2 X S2|s s2 X S2|s s2 X1 X S2]; try congruence; auto; exfalso; eauto.
    + discriminate.
    + destruct (HB _ X). congruence.
  - remember false as c eqn:EC. destruct (HB _ A).
    destruct S2 as [| |c s s2 X S2|c s s2 X S2|s s2 X S2|s s2 X1 X S2]; try discriminate; try congruence; auto.
  - remember true as c eqn:EC.
    destruct S2 as [| |c s s2 X S2|c s s2 X S2|s s2 X S2|s s2 X1 X S2]; subst; try congruence; auto.
Qed.

Lemma wp_underflow o (map : bool) b0 r sc : extendable o = false -> skips false b0 ((if map then 125%N else 93%N) :: r) ->
  sc_state sc = SStream -> c_flow (sc_cxt sc) = 0 ->
  wp o (~ ascii b0) (scan_next_token o) b0 sc (fun _ _ _ _ => False) (fun _ _ _ => True).
Proof.
  intros NE SK ST FL. set (b := (if map then 125%N else 93%N) :: r) in *.
  unfold scan_next_token. apply wp_get_sc. rewrite ST.
  apply wp_bind with (P := fun es b1 sc1 _ => b1 = b /\ sc_state sc1 = SStream /\ c_flow (sc_cxt sc1) = 0) (X := fun _ _ _ => True); auto.
  { unfold sc_eat_whitespace. apply wp_get_buf.
    eapply wp_leaf; [apply eat_ws_leaf|intros X; exact X|exact Logic.I|].
    intros [rest d] EW RD. apply eat_ws_skips in EW. assert (rest = b) as -> by (eapply skips_det; eauto).
    destruct (Nat.eqb (slines d) 0).
    - apply wp_ret_bind, wp_skip; [exact (reads_boundary _ _ _ _ RD)|]. apply wp_upd_last.
      rewrite (proj1 (reads_consumed _ _ _ _ RD)). cbn. auto.
    - apply wp_upd, wp_skip; [exact (reads_boundary _ _ _ _ RD)|]. apply wp_upd_last.
      rewrite (proj1 (reads_consumed _ _ _ _ RD)). cbn. auto. }
  intros es b1 sc1 _ (-> & ST1 & FL1).
  apply wp_bind with (P := fun es b1 sc1 _ => b1 = b /\ sc_state sc1 = SStream /\ c_flow (sc_cxt sc1) = 0) (X := fun _ _ _ => True); auto.
  { unfold expire_stale_saved_key. apply wp_get_sc. destruct (sc_key sc1) as [k|]; [|apply wp_ret; auto].
    destruct (_ && _); [|apply wp_ret; auto]. destruct (kp_required _); [apply wp_err; discriminate|].
    apply wp_upd_last. cbn. auto. }
  clear es. intros es b2 sc2 _ (-> & ST2 & FL2).
  apply wp_get_sc, wp_unroll. intros n c (_ & _ & CF & _) _ _.
  set (sc3 := set_cxt c sc2). assert (ST3 : sc_state sc3 = SStream /\ c_flow (sc_cxt sc3) = 0) by (cbn; split; congruence).
  destruct ST3 as [ST3 FL3]. clearbody sc3.
  apply wp_bind with (P := fun es b1 sc1 _ => b1 = b /\ sc_state sc1 = SStream /\ c_flow (sc_cxt sc1) = 0) (X := fun _ _ _ => True); auto.
  { unfold pop_zero_indent_sequence. apply wp_get_sc, wp_get_buf.
    destruct (c_indents (sc_cxt sc3)) as [|e l] eqn:I; [apply wp_ret; auto|].
    destruct (_ && _); [|apply wp_ret; auto]. unfold pop_indent. rewrite I. apply wp_upd.
    cbn [enqueue_ends]. apply wp_enqueue, wp_ret. cbn. auto. }
  intros e4 b4 sc4 _ (-> & ST4 & FL4). apply wp_get_buf, wp_get_sc. rewrite ST4.
  assert (EM : is_empty b = false) by reflexivity. rewrite EM. cbn [orb].
  eapply wp_leaf; [apply (cache_leaf o b 4 False)|intros []|exact Logic.I|]. intros _ _ _.
  unfold dispatch. apply wp_get_buf, wp_get_sc.
  assert (NF : forall m, wp o (~ ascii b0) (fetch_flow_collection_end m) b sc4 (fun _ _ _ _ => False) (fun _ _ _ => True)).
  { intros m. unfold fetch_flow_collection_end. apply wp_remove_key. intros _. apply wp_get_sc.
    unfold flow_decrement. cbn [sc_cxt set_key]. rewrite FL4. apply wp_err_bind. discriminate. }
  unfold b. destruct map; cbn [at_is nth_error N.eqb andb orb starts_with bytes]; apply NF.
Qed.

Section Underflow.
  Variables (t : str) (o : flags).
  Hypothesis V : valid t.

  Lemma stream_underflow s l r c rest : consumes (open t o) s = (l, Ok r) -> l <> [] ->
    let left := skipn (sc_offset (r_sc r)) t in
    skips false left (c :: rest) -> c = 125%N \/ c = 93%N ->
    count flow_open (l ++ pending r) = count flow_close (l ++ pending r) ->
    (exists e, snd (reader_scan r) = Err (RScan e)) \/
    snd (reader_scan r) = Panic /\ ~ Forall (fun x => x < 128)%N left.
  Proof.
    intros E NE left SK CC CT. pose proof (stream_depth t o V s l r E) as D.
    assert (FL : c_flow (sc_cxt (r_sc r)) = 0) by lia.
    destruct (stream_stage t o V s l r E) as (b & h & I & G & P & S & B & RI & RO).
    assert (EB : b = left).
    { unfold left. unfold stands, get_from in G. destruct (is_boundary t _); congruence. }
    assert (ST : sc_state (r_sc r) = SStream).
    { pose proof (i_frame _ _ _ _ _ I) as F. destruct (sc_state (r_sc r)) eqn:X; [|reflexivity|].
      - cbn in F. subst h. apply Permutation_nil in P. apply app_eq_nil in P. tauto.
      - destruct (i_done _ _ _ _ _ I X) as [EMP _]. rewrite <- EB, EMP in SK. apply (skips_det _ _ _ (sk_eof false)) in SK. discriminate. }
    assert (W : exists m : bool, c = if m then 125%N else 93%N).
    { destruct CC as [->| ->]; [exists true|exists false]; reflexivity. }
    destruct W as (m & ->). 
    destruct (wp_underflow (no_extend o) m left rest (r_sc r) eq_refl SK ST FL) as (es & b' & sc' & x & EX & O).
    destruct x as [a|e| |]; cbn in O; [destruct O| | |destruct O].
    1: left; exists e.
    2: right; split; [|exact O].
    all: unfold reader_scan, drive; rewrite RI, RO.
    all: unfold scan_tokens; replace (List.length t + 3) with (Datatypes.S (List.length t + 2)) by lia.
    all: cbn [scan_loop]; unfold want_more; rewrite ST, Nat.eqb_refl; cbn [orb].
    all: unfold scan_round; rewrite G, EB, EX; try destruct e; reflexivity.
  Qed.
End Underflow.

(** ** The peeking reader is such a consumer *)
Lemma pop_schedule r : exists s, match pk_pop (peek_new r) with
  | (p, Ok e) => exists r', p = peek_new r' /\
      consumes r s = (match e with Some e => [e] | None => [] end, Ok r')
  | (_, Err e) => consumes r s = ([], Err e)
  | (_, Panic) => consumes r s = ([], Panic)
  | (_, Fuel) => consumes r s = ([], Fuel)
  end.
Proof.
  unfold pk_pop, peek_new. cbn [pk_peek pk_reader]. destruct (reader_exhausted r) eqn:X.
  - exists []. exists r. auto.
  - unfold take_next. cbn [pk_peek pk_reader]. destruct (Nat.eqb (q_len (r_q r)) 0).
    + exists [Fill; Pull]. cbn [consumes]. destruct (reader_scan r) as [r1 [a|e| |]]; auto.
      destruct (q_pop entry_cmp (r_q r1)) as [[e|] q]; cbn; eauto.
    + exists [Pull]. cbn [consumes]. destruct (q_pop entry_cmp (r_q r)) as [[e|] q]; cbn; eauto.
Qed.

Lemma taken_schedule n : forall r, exists s l x, consumes r s = (l, x) /\ delivered (taken (peek_new r) n) = l /\
  (forall e, In (Err e) (taken (peek_new r) n) -> x = Err e) /\
  (In Panic (taken (peek_new r) n) -> x = Panic) /\ (In Fuel (taken (peek_new r) n) -> x = Fuel).
Proof.
  induction n as [|n IH]; intros r.
  - exists [], [], (Ok r). cbn. tauto.
  - destruct (pop_schedule r) as (s1 & P). unfold taken. cbn [repeat served].
    destruct (pk_pop (peek_new r)) as [p [e|e| |]]; cbn [map snd].
    + destruct P as (r' & -> & E1). destruct (IH r') as (s & l & x & E & D & A & B & C).
      exists (s1 ++ s), ((match e with Some e => [e] | None => [] end) ++ l), x.
      split; [rewrite consumes_app, E1, E; reflexivity|].
      split; [destruct e; cbn; rewrite <- D; reflexivity|].
      unfold taken in *. split; [intros e' [X|X]; [discriminate|auto]|].
      split; intros [X|X]; try discriminate; auto.
    + exists s1, [], (Err e). split; [exact P|]. split; [reflexivity|]. cbn.
      split; [intros e' [X|[]]; congruence|]. split; intros [X|[]]; discriminate.
    + exists s1, [], Panic. split; [exact P|]. split; [reflexivity|]. cbn.
      split; [intros e' [X|[]]; discriminate|]. split; [auto|intros [X|[]]; discriminate].
    + exists s1, [], Fuel. split; [exact P|]. split; [reflexivity|]. cbn.
      split; [intros e' [X|[]]; discriminate|]. split; [intros [X|[]]; discriminate|auto].
Qed.

(** ** Statements over well-formed texts *)
From Verif Require Import SpecUtf8 Utf8Facts.
Open Scope nat_scope.
Lemma ascii_well_formed t : Forall (fun c => c < 128)%N t -> well_formed t.
Proof.
  intros A. exists t. split.
  - eapply Forall_impl; [|exact A]. unfold scalar_value. cbn. lia.
  - induction A as [|c t C A IH]; [reflexivity|]. cbn [flat_map]. rewrite <- IH. unfold encode.
    destruct (N.ltb_spec c 128); [reflexivity|lia].
Qed.

Definition request_dec (a b : request) : {a = b} + {a <> b}.
Proof. decide equality. Defined.
Lemma fills_count s : fills s = count_occ request_dec s Fill.
Proof. induction s as [|[] s IH]; cbn; congruence. Qed.
Lemma stream_finishes t o : valid t -> forall s l r, consumes (open t o) s = (l, Ok r) ->
  List.length t + 3 <= count_occ request_dec s Fill -> exists e, In e (l ++ pending r) /\ e_wrap e = Tok TStreamEnd.
Proof.
  intros V s l r E L. rewrite <- fills_count in L. destruct (stream_ends t o V s l r E L) as (e & I & M).
  exists e. split; [exact I|]. unfold e_marker, maybe_marker in M. destruct (e_wrap e) as [[]|[]]; try discriminate. reflexivity.
Qed.

Lemma key_places t o : well_formed t -> forall s l x e, consumes (open t o) s = (l, x) -> In e l -> e_wrap e = Tok TKey ->
  exists n, (no_verbatim_tag t -> n = e_read e) /\ (explicit_key t n \/ implicit_key t n).
Proof.
  intros W s l x e E I K.
  destruct (stream_keys t o (proj2 (valid_iff t) W) s l x e E I) as (n & X & P).
  - unfold e_marker. rewrite K. reflexivity.
  - exists n. split; [|exact P]. intros NV. apply X, no_verbatim_exactly, NV.
Qed.

(** ** Witnesses *)
Definition newline : str := [10%N].
Definition panics : list str :=
  [ [195; 169]%N (* the character U+00E9 *);
    bytes "'" ++ [195; 169]%N ++ bytes "'";
    bytes "#" ++ [195; 169]%N;
    bytes "a: |";
    bytes "|2" ++ newline ++ bytes " x" ++ newline;
    [34; 92]%N ++ bytes "ud800" ++ [34]%N;
    bytes "!a%e0%80%80 b";
    bytes "!<a>>" ++ newline ++ bytes "x" ].
Lemma panicking_texts : List.length panics = 8 /\ Forall well_formed panics /\
  forall t, In t panics -> exists s, consumes (open t (mkFlags false false)) s = ([], Panic).
Proof.
  split; [reflexivity|]. split.
  - apply Forall_forall. intros t I. apply valid_iff. revert t I. apply Forall_forall.
    apply Forall_forall. intros t I. apply (proj1 (forallb_forall valid_utf8 panics)); [vm_compute; reflexivity|exact I].
  - intros t I. exists (repeat Fill 4). revert t I. cbn [panics In].
    intros t I. repeat (destruct I as [<-|I]; [vm_compute; reflexivity|]). destruct I.
Qed.

Lemma position_one_line t n l c : position t n l c -> (forall k, break_len (skipn k t) = 0) -> l = 0.
Proof. intros P H. induction P; auto. contradiction (H n). Qed.
Lemma inexact_texts :
  (exists t s r, well_formed t /\ consumes (open t (mkFlags false false)) s = ([], Ok r) /\
     sc_offset (r_sc r) = 14 /\ sread (sc_st (r_sc r)) = 11) /\
  (exists t s r, well_formed t /\ consumes (open t (mkFlags false true)) s = ([], Ok r) /\
     sc_offset (r_sc r) = 1 /\ slines (sc_st (r_sc r)) = 1 /\ forall c, ~ position t 1 1 c).
Proof.
  split.
  - exists (bytes "!<a>>" ++ newline ++ bytes "  x" ++ newline ++ bytes "b: c"), (repeat Fill 9). eexists.
    split; [apply valid_iff; vm_compute; reflexivity|]. split; [vm_compute; reflexivity|]. split; reflexivity.
  - exists (bytes "|"), (repeat Fill 3). eexists.
    split; [apply valid_iff; vm_compute; reflexivity|]. split; [vm_compute; reflexivity|]. split; [reflexivity|]. split; [reflexivity|].
    intros c P. apply position_one_line in P; [discriminate|]. intros [|[|n]]; reflexivity.
Qed.

(** ** Sufficient conditions *)
Lemma no_bang_no_tag t : existsb (N.eqb 33) t = false -> no_verbatim_tag t.
Proof.
  intros H a b ->. rewrite existsb_app in H. apply orb_false_elim in H as [_ H]. cbn in H. discriminate.
Qed.
