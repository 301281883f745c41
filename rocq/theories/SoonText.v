(** Two texts whose tokens begin alike. *)
From Verif Require Import SpecTape SpecUtf8 TapeStream SoonFacts EventCount.
From Coq Require Import Lia.
Open Scope nat_scope.

Lemma one_tape l : forall p x l' x', on_tape p (l, x) -> on_tape p (l', x') -> l' = l /\ tape_end x' = tape_end x.
Proof.
  induction l as [|e l IH]; intros p x [|e' l'] x' O O'.
  - apply on_end in O, O'. split; congruence.
  - apply on_end in O. apply on_head in O' as [E' _]. rewrite O in E'. destruct x as [[]|?| |]; discriminate.
  - apply on_end in O'. apply on_head in O as [E _]. rewrite O' in E. destruct x' as [[]|?| |]; discriminate.
  - apply on_head in O as [E O], O' as [E' O']. destruct (IH _ _ _ _ O O') as [-> H].
    split; [congruence|exact H].
Qed.
Lemma begins l : forall p l' x', taken p (List.length l) = map (fun e => Ok (Some e)) l -> on_tape p (l', x') ->
  exists b, l' = l ++ b.
Proof.
  induction l as [|e l IH]; intros p l' x' T O; [exists l'; reflexivity|].
  cbn [List.length map] in T. rewrite taken_S in T. injection T as E T. rewrite E in T.
  destruct l' as [|e' l'].
  - apply on_end in O. rewrite O in E. destruct x' as [[]|?| |]; discriminate.
  - apply on_head in O as [E' O]. destruct (IH _ _ _ T O) as [b ->]. exists b. cbn. congruence.
Qed.

Lemma until_events {A} (es : list A) : forall xs,
  until_failure xs = map (fun e => Ok (Some e)) es <-> xs = map (fun e => Ok (Some e)) es.
Proof.
  induction es as [|e es IH]; intros [|[[a|]|z| |] xs]; cbn; split; intros H; try discriminate; try reflexivity.
  - injection H as -> H. f_equal. apply IH, H.
  - injection H as -> H. f_equal. apply IH, H.
Qed.
Lemma delivered_all {A} (es : list A) : SpecGrammar.delivered (map (fun e => Ok (Some e)) es) = es.
Proof. induction es as [|e es IH]; cbn; [reflexivity|f_equal; exact IH]. Qed.

Lemma text_soon t t' lazy debug l f n es :
  well_formed t -> well_formed t' ->
  on_tape (snd (events_new (Borrow t) lazy)) (l, Err f) ->
  taken (snd (events_new (Borrow t') lazy)) (List.length l) = map (fun e => Ok (Some e)) l ->
  run_events peek_source debug n parser0 (snd (events_new (Borrow t) lazy)) = map (fun e => Ok (Some e)) es ->
  run_events peek_source debug n parser0 (snd (events_new (Borrow t') lazy)) = map (fun e => Ok (Some e)) es.
Proof.
  intros W W' O T R.
  destruct (text_events t lazy debug W) as (l0 & x0 & O0 & _ & E0 & _).
  destruct (text_events t' lazy debug W') as (l1 & x1 & O1 & _ & E1 & _).
  destruct (one_tape _ _ _ _ _ O O0) as [-> X]. destruct x0 as [[]|z| |]; cbn in X; try discriminate.
  injection X as ->. destruct (begins _ _ _ _ T O1) as [b ->].
  apply (proj1 (until_events _ _)). rewrite E1. apply (proj2 (until_events _ _)).
  apply (proj2 (until_events _ _)) in R. rewrite E0 in R. apply (proj1 (until_events _ _)) in R.
  destruct (delivered_soon f b x1 debug n parser0 l) as [rest H].
  pose proof (f_equal SpecGrammar.delivered R) as D. rewrite delivered_all in D.
  assert (H' : run_events tape_source debug n parser0 (l ++ b, x1) = map (fun e => Ok (Some e)) es ++ rest)
    by (rewrite <- D; exact H).
  clear H. rename H' into H.
  pose proof (f_equal (@List.length _) H) as L. rewrite app_length, map_length, (run_length tape_source) in L.
  pose proof (f_equal (@List.length _) R) as L'. rewrite map_length, (run_length tape_source) in L'.
  destruct rest as [|? ?]; [rewrite H, app_nil_r; reflexivity|cbn in L; lia].
Qed.
