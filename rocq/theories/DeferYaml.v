(** The events of YAML streams read with deferred scalars. *)
From Verif Require Import SpecDeferYaml SpecContent SpecDefer DeferEvents YamlEvents.
From Coq Require Import Lia.
Open Scope nat_scope.

Lemma follows_all es : forall l' x, follows (map (fun e => Ok (Some e)) es ++ [Ok None]) (l' ++ [x]) -> List.length l' = List.length es ->
  exists es', l' = map (fun e => Ok (Some e)) es' /\ Forall2 same_event es es' /\ x = Ok None.
Proof.
  induction es as [|e es IH]; intros l' x F L; (destruct l' as [|y l']; [|]; try discriminate L).
  - exists []. cbn in *. auto.
  - cbn [map app follows] in F. destruct y as [[e'|]|?| |]; try contradiction. destruct F as [S F].
    destruct (IH l' x F) as (es' & -> & A & ->); [cbn in L; lia|]. exists (e' :: es'). cbn. auto.
Qed.
Lemma split_last {A} (l : list A) n : List.length l = n + 1 -> exists a x, l = a ++ [x] /\ List.length a = n.
Proof.
  intros L. destruct (exists_last (l := l)) as (a & x & ->); [intros ->; cbn in L; lia|]. exists a, x. rewrite app_length in L. cbn in L. split; [reflexivity|lia].
Qed.
Lemma shown_lazily d ev ev' : shows ev = Some d -> same_data ev ev' -> shows_lazily d ev'.
Proof.
  intros S D. destruct ev as [| |? ?|?|?|n s|?| |?|]; cbn [same_data] in D;
    try (subst ev'; eexists; eexists; split; [reflexivity|]; split; [exact S|left; reflexivity]).
  destruct ev' as [| |? ?|?|?|n' s'|?| |?|]; try discriminate D. destruct D as (-> & c & c' & k & E & E' & U).
  destruct s as [c0 k0|df]; [|discriminate S]. cbn [evaluate_scalar] in E. injection E as -> ->. cbn [shows] in S. injection S as <-.
  eexists. eexists. cbn [evaluated]. rewrite E'. split; [reflexivity|]. split; [reflexivity|]. unfold may_lack_break.
  destruct U as [->|(K & [-> |(x & X & ->)])]; [left; reflexivity|left; reflexivity|right; exists (node_about n), (cow_str c'), x, k; auto].
Qed.
Theorem lazy_stream_events t e debug : all_ascii t -> no_double t -> stream t e ->
  exists es evs,
    run_events peek_source debug (List.length es + 1) parser0 (snd (events_new (Borrow t) true))
      = map (fun x => Ok (Some x)) es ++ [Ok None] /\
    map ev_data es = EvStreamStart :: evs ++ [EvStreamEnd] /\
    Forall2 shows_lazily e evs.
Proof.
  intros A D S. destruct (stream_events t e debug A S) as (es & evs & R & E & V).
  pose proof (deferred_events t debug (List.length es + 1) A D) as F. rewrite R in F.
  destruct (split_last _ _ (DeferEvents.run_length peek_source debug (List.length es + 1) parser0 (snd (events_new (Borrow t) true)))) as (l' & x & L & N).
  rewrite L in F. destruct (follows_all es l' x F N) as (es' & -> & SE & ->). rewrite map_length in N. clear F.
  assert (SD : Forall2 same_data (map ev_data es) (map ev_data es')).
  { clear - SE. induction SE as [|a b l l' H SE IH]; cbn; constructor; [apply H|exact IH]. }
  rewrite E in SD. inversion SD as [|a b l l' H SD' E1 E2]; subst. cbn [same_data] in H. subst b.
  apply Forall2_app_inv_l in SD' as (evs' & last & SV & SL & ->). inversion SL as [|a b ? l1 H SL' E1 E3]; subst. inversion SL'; subst. cbn [same_data] in H. subst b.
  exists es', evs'. rewrite N, L. split; [reflexivity|]. split; [symmetry; exact E2|].
  clear - V SV. revert e V. induction SV as [|a b l l' H SV IH]; intros [|d e] V; cbn in V; try discriminate; constructor.
  - injection V as V _. eapply shown_lazily; eassumption.
  - apply IH. injection V as _ V. exact V.
Qed.

Lemma no_backslash t : existsb (N.eqb 92) t = false -> no_double t.
Proof.
  intros X a b ->. rewrite existsb_app in X. apply Bool.orb_false_iff in X as [_ X]. discriminate X.
Qed.
