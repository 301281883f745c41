(** What evaluating a deferred scalar may give. *)
From Verif Require Import Base Token Macros Block.

(** The first text is the second one, or the second one with a line break behind it. *)
Definition up_to_break (c c' : cow) : Prop :=
  cow_str c = cow_str c' \/ exists x, (x = 10%N \/ x = 13%N) /\ cow_str c = cow_str c' ++ [x].

(** What was scanned evaluates to the token [t]; block scalars, that is scalars introduced
    by a bar or an angle bracket, may lack the line break at their end. *)
Definition evaluates (m : maybe_token) (t : token) : Prop :=
  into_token m = Ok t \/
  exists c c' k, t = TScalar c k /\ (k = Literal \/ k = Folded) /\ into_token m = Ok (TScalar c' k) /\ up_to_break c c'.

(** The same place in the stream, and the same token once evaluated. *)
Definition stands_for (e e' : entry) : Prop :=
  e_read e' = e_read e /\ exists t, into_token (e_wrap e) = Ok t /\ evaluates (e_wrap e') t.

(** No backslash follows another one. *)
Definition no_double (s : str) : Prop := forall a b, s <> a ++ 92%N :: 92%N :: b.
