(** What one of several iterators answers. *)
From Verif Require Export Shared.
Open Scope nat_scope.

(** The answers of the iterator number [k], and how often it is called. *)
Definition answers_of {A} (k : nat) (l : list (nat * A)) : list A :=
  map snd (filter (fun x => Nat.eqb (fst x) k) l).
Definition calls_of (k : nat) (schedule : list nat) : nat :=
  List.length (filter (fun j => Nat.eqb j k) schedule).
