(** The events from byte sources: they end, do not panic and have rising marks. *)
From Verif Require Import SpecMarks SpecTape SpecUtf8 SpecHarmless SpecContent EventCount EventCalm HarmlessFacts MarkFacts OwnedEvents SpecLazySource LazySource SpecOwned.
From Coq Require Import Lia.
Open Scope nat_scope.

(** Sources over which the answers are those over the text. *)
Definition like_text (lazy : bool) (t : str) (src : Reader.source) : Prop :=
  steady src /\ bytes_of src = t /\ (all_ascii t \/ short t) /\ (lazy = true -> ~ In 13%N t).
Lemma like_answers lazy t src debug n : well_formed t -> like_text lazy t src ->
  exists g, (forall x, match x with Ok (Some e) => exists e', g x = Ok (Some e') /\ ev_start e' = ev_start e /\ ev_end e' = ev_end e | _ => g x = x end) /\
  until_failure (run_events peek_source debug n parser0 (snd (events_new (Borrow t) lazy)))
  = map g (until_failure (run_events peek_source debug n parser0 (snd (events_new (Own (owned_new src)) lazy)))).
Proof.
  intros W (S & B & A & NC). destruct lazy.
  - exists settled_answer. split.
    + intros [[e|]|e| |]; cbn; try reflexivity. eexists. split; [reflexivity|]. split; reflexivity.
    + exact (proj1 (lazily_poured t src debug W S B (NC eq_refl) A n)).
  - exists (fun x => x). split.
    + intros [[e|]|e| |]; try reflexivity. exists e. auto.
    + rewrite map_id. symmetry. exact (proj1 (poured_events t src debug W S B A n)).
Qed.
Lemma until_kept {A} (l : list (pres (option A))) i : forall x,
  (forall j, j < i -> exists e, nth_error l j = Some (Ok (Some e))) -> nth_error l i = Some x -> nth_error (until_failure l) i = Some x.
Proof.
  revert l. induction i as [|i IH]; intros l x B N.
  - destruct l as [|[[e|]|e| |] l]; cbn in *; congruence.
  - destruct l as [|y l]; [discriminate|]. destruct (B 0 (Nat.lt_0_succ i)) as (e & Y). cbn in Y. injection Y as ->. cbn.
    apply IH; [|exact N]. intros j J. apply (B (S j)). lia.
Qed.
Lemma source_ends t src lazy debug : well_formed t -> like_text lazy t src -> exists k x, k <= 18 * List.length t + 13 /\
  x <> Fuel /\ (forall e, x <> Ok (Some e)) /\
  forall n, k < n -> let xs := run_events peek_source debug n parser0 (snd (events_new (Own (owned_new src)) lazy)) in
    nth_error xs k = Some x /\ forall i, i < k -> exists e, nth_error xs i = Some (Ok (Some e)).
Proof.
  intros W L. destruct (text_ends t lazy debug W) as (k & x & K & F & NE & H). exists k, x. split; [exact K|]. split; [exact F|]. split; [exact NE|].
  intros n KN. cbv zeta. specialize (H n KN). cbv zeta in H. destruct H as [H1 H2].
  destruct (like_answers lazy t src debug n W L) as (g & G & E). set (xs := run_events _ _ _ _ (snd (events_new (Own _) lazy))) in *.
  assert (X : forall i y, i <= k -> nth_error (run_events peek_source debug n parser0 (snd (events_new (Borrow t) lazy))) i = Some y ->
    exists z, nth_error xs i = Some z /\ g z = y).
  { intros i y I N. apply until_kept in N; [|intros j J; apply H2; lia]. rewrite E, nth_error_map in N.
    destruct (nth_error (until_failure xs) i) as [z|] eqn:Z; [|exfalso; clear - N Z; revert N; unfold option_map; change (@nth_error (res parse_error (option event)) (until_failure xs) i) with (@nth_error (pres (option event)) (until_failure xs) i); rewrite Z; discriminate].
    assert (g z = y) as <- by (clear - N Z; revert N; unfold option_map; change (@nth_error (res parse_error (option event)) (until_failure xs) i) with (@nth_error (pres (option event)) (until_failure xs) i); rewrite Z; congruence). exists z. split; [apply until_nth, Z|reflexivity]. }
  split.
  - destruct (X k x (le_n k) H1) as (z & Z & EZ). rewrite Z. f_equal. specialize (G z).
    destruct z as [[e|]|e| |]; try congruence. destruct G as (e' & G & _). rewrite G in EZ. destruct (NE e'). congruence.
  - intros i I. destruct (H2 i I) as (e & N). destruct (X i _ (Nat.lt_le_incl _ _ I) N) as (z & Z & EZ). specialize (G z).
    destruct z as [[e0|]|e0| |]; try congruence. exists e0. exact Z.
Qed.
Lemma source_calm t src lazy n : well_formed t -> harmless lazy t -> like_text lazy t src ->
  ~ In Panic (until_failure (run_events peek_source false n parser0 (snd (events_new (Own (owned_new src)) lazy)))).
Proof.
  intros W HA L I. apply (harmless_events t lazy n HA). destruct (like_answers lazy t src false n W L) as (g & G & E). rewrite E.
  apply in_map_iff. exists Panic. split; [exact (G Panic)|exact I].
Qed.
Lemma source_marks t src lazy debug n : well_formed t -> like_text lazy t src ->
  rising 0 (marks (first_events (run_events peek_source debug n parser0 (snd (events_new (Own (owned_new src)) lazy))))) (List.length t).
Proof.
  intros W L. destruct (like_answers lazy t src debug n W L) as (g & G & E). pose proof (marks_rise t lazy debug n W) as M.
  rewrite <- first_until, E in M. rewrite <- first_until. set (xs := until_failure (run_events _ _ _ _ (snd (events_new (Own _) lazy)))) in *.
  assert (X : marks (first_events (map g xs)) = marks (first_events xs)); [|rewrite X in M; exact M].
  clear - G. induction xs as [|y xs IH]; [reflexivity|]. cbn [map]. specialize (G y).
  destruct y as [[e|]|e| |]; try (rewrite G; reflexivity). destruct G as (e' & -> & E1 & E2). cbn [first_events marks flat_map app]. rewrite E1, E2.
  f_equal. f_equal. exact IH.
Qed.
Lemma harmless_source t src lazy n : harmless lazy t -> steady src -> bytes_of src = t -> (lazy = true -> ~ In 13%N t) ->
  ~ In Panic (until_failure (run_events peek_source false n parser0 (snd (events_new (Own (owned_new src)) lazy)))).
Proof.
  intros HA S B NC. apply (source_calm t); [exact (StreamFacts.ascii_well_formed t (proj1 HA))|exact HA|].
  split; [exact S|]. split; [exact B|]. split; [left; exact (proj1 HA)|exact NC].
Qed.
