(** Specification of how far a parser reads ahead. *)
From Verif Require Export SpecLogged SpecTape.

(** What may come instead of the rest of a tape: anything that begins with the same
    token, and the same if nothing is left. *)
Definition alike (rest rest' : tape) : Prop :=
  match fst rest with
  | [] => rest' = rest
  | t :: _ => exists l', fst rest' = t :: l'
  end.
