(** Loops without fuel. *)
From Verif Require Export Base.

(** [runs body s r]: from state [s] the loop leaves with [r]. *)
Inductive runs {E S R : Type} (body : S -> res E (step S R)) : S -> R -> Prop :=
| runs_done s r : body s = Ok (Done r) -> runs body s r
| runs_next s s' r : body s = Ok (Next s') -> runs body s' r -> runs body s r.

Lemma loop_runs {E S R} (body : S -> res E (step S R)) fuel : forall s r,
  loop fuel body s = Ok r -> runs body s r.
Proof.
  induction fuel as [|n IH]; intros s r; [discriminate|].
  cbn [loop]. destruct (body s) as [[s'|r']|e| |] eqn:B; try discriminate.
  - intros L. eapply runs_next; eauto.
  - intros E1; injection E1 as ->. apply runs_done, B.
Qed.

Lemma runs_loop {E S R} (body : S -> res E (step S R)) s r :
  runs body s r -> forall fuel, loop fuel body s <> Fuel -> loop fuel body s = Ok r.
Proof.
  intros H. induction H as [s r B|s s' r B H IH]; intros [|n] N; cbn [loop] in *; try congruence.
  - rewrite B. reflexivity.
  - rewrite B in *. apply IH, N.
Qed.

Lemma runs_fun {E S R} (body : S -> res E (step S R)) s r r' :
  runs body s r -> runs body s r' -> r = r'.
Proof.
  intros H. revert r'. induction H as [s r B|s s' r B H IH]; intros r' K; destruct K; try congruence.
  apply IH. congruence.
Qed.

(** A loop that fails, without fuel. *)
Inductive fails {E S R : Type} (body : S -> res E (step S R)) : S -> E -> Prop :=
| fails_here s e : body s = Err e -> fails body s e
| fails_next s s' e : body s = Ok (Next s') -> fails body s' e -> fails body s e.
Lemma fails_loop {E S R} (body : S -> res E (step S R)) s e :
  fails body s e -> forall fuel, loop fuel body s <> Fuel -> loop fuel body s = Err e.
Proof.
  intros H. induction H as [s r B|s s' r B H IH]; intros [|n] N; cbn [loop] in *; try congruence.
  - rewrite B. reflexivity.
  - rewrite B in *. apply IH, N.
Qed.
Lemma loop_fails {E S R} (body : S -> res E (step S R)) fuel : forall s e,
  loop fuel body s = Err e -> fails body s e.
Proof.
  induction fuel as [|n IH]; intros s r; [discriminate|].
  cbn [loop]. destruct (body s) as [[s'|r']|e| |] eqn:B; try discriminate.
  - intros L. eapply fails_next; eauto.
  - intros E1; injection E1 as ->. apply fails_here, B.
Qed.

(** Induction on a loop that succeeded. *)
Lemma runs_ind_inv {E S R} (body : S -> res E (step S R)) (Inv : S -> Prop) (P : R -> Prop) :
  (forall s s', Inv s -> body s = Ok (Next s') -> Inv s') ->
  (forall s r, Inv s -> body s = Ok (Done r) -> P r) ->
  forall s r, runs body s r -> Inv s -> P r.
Proof. intros A B s r H. induction H; eauto. Qed.
