(** Facts about the basic vocabulary. *)
From Coq Require Export Lia ZifyBool ZifyNat ZifyN.
From Verif Require Export Base.

Lemma str_eqb_eq a b : str_eqb a b = true <-> a = b.
Proof.
  revert b; induction a as [|x a IH]; intros [|y b]; cbn; try (split; congruence).
  rewrite andb_true_iff, N.eqb_eq, IH. intuition congruence.
Qed.
Lemma str_eqb_refl a : str_eqb a a = true.
Proof. apply str_eqb_eq; reflexivity. Qed.
Lemma str_eqb_neq a b : str_eqb a b = false <-> a <> b.
Proof. rewrite <- str_eqb_eq. destruct (str_eqb a b); intuition congruence. Qed.

Lemma starts_with_iff s p : starts_with s p = true <-> exists r, s = p ++ r.
Proof.
  revert s; induction p as [|y p IH]; intros s.
  - destruct s; cbn; split; eauto.
  - destruct s as [|x s]; [split; [discriminate|intros (r & H); discriminate]|].
    cbn. rewrite andb_true_iff, N.eqb_eq, IH. split.
    + intros (-> & r & ->). exists r; reflexivity.
    + intros (r & [= -> ->]). split; [reflexivity|exists r; reflexivity].
Qed.
