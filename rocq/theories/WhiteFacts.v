(** White space, line breaks and document markers: the scanner's tests against the
    specification. *)
From Verif Require Export LazyFacts SpecQuoted.
From Coq Require Import Lia ZifyBool ZifyN ZifyNat.
Open Scope nat_scope.

Lemma break_len_amt s : break_len s = break_amt s.
Proof.
  unfold break_len, break_amt, at_is. destruct s as [|a [|b [|c s]]]; cbn [nth_error]; [reflexivity|..].
  all: destruct (N.eqb_spec a 10) as [->|]; [reflexivity|].
  all: destruct (N.eqb_spec a 13) as [->|]; [reflexivity|].
  all: destruct (N.eqb_spec a 194) as [->|]; [cbn; try reflexivity; destruct (b =? 133)%N; reflexivity|].
  all: destruct (N.eqb_spec a 226) as [->|]; cbn; try reflexivity; destruct (b =? 128)%N; reflexivity.
Qed.
Lemma no_break_len s : is_break s = false -> break_len s = 0.
Proof. unfold is_break. rewrite break_len_amt. destruct (break_amt s); [auto|discriminate]. Qed.
Lemma is_blank_iff s : is_blank s = true <-> exists c r, s = c :: r /\ blank c.
Proof.
  unfold is_blank, blank. split.
  - intros H. apply orb_true_iff in H as [H|H]; apply at_is_cons in H as (r & ->); eauto 6.
  - intros (c & r & -> & [-> | ->]); reflexivity.
Qed.
Lemma is_break_iff s : is_break s = true <-> break_len s <> 0.
Proof. rewrite break_len_amt. unfold is_break. destruct (break_amt s); cbn; split; congruence. Qed.
Lemma white_iff s : is_ws s = true <-> white s.
Proof. unfold is_ws, white. rewrite orb_true_iff, is_blank_iff, is_break_iff. reflexivity. Qed.
Lemma not_white s : is_ws s = false <-> ~ white s.
Proof. rewrite <- white_iff. destruct (is_ws s); intuition congruence. Qed.
Lemma wsZ_ws s : is_wsZ s = is_ws s || is_empty s.
Proof. reflexivity. Qed.
Lemma white_ne s : white s -> s <> [].
Proof. intros [(c & r & -> & _)|H] E; [discriminate|]. subst s. apply H. reflexivity. Qed.

Lemma wsZ_iff s : is_wsZ s = true <-> s = [] \/ white s.
Proof. rewrite wsZ_ws, orb_true_iff, white_iff. destruct s; cbn; intuition congruence. Qed.
Lemma document_marker_iff s : is_doc_indicator s 0 = true <-> document_marker s.
Proof.
  unfold is_doc_indicator, document_marker, is_wsZ_at. cbn [Nat.eqb andb].
  rewrite andb_true_iff, orb_true_iff, !starts_with_iff, wsZ_iff. split.
  - intros ([(r & ->)|(r & ->)] & H); exists r; auto.
  - intros (r & [-> | ->] & H); eauto.
Qed.
Lemma doc_indicator_col s n : is_doc_indicator s (S n) = false.
Proof. reflexivity. Qed.
