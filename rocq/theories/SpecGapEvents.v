(** Events of texts that differ in white space and comments between tokens. *)
From Verif Require Export SpecGap Parser.

(** The same place: at or before [p] literally, behind it [n1] bytes into the one text
    where it is [n2] bytes into the other. *)
Definition same_place (p n1 n2 a b : nat) : Prop := a <= p /\ b = a \/ a + n2 = b + n1.

(** The same event at the same places; a deferred scalar by what it evaluates to. *)
Definition same_kind (d d' : event_data) : Prop :=
  match d, d' with
  | EvScalar n s, EvScalar n' s' => n' = n /\ evaluate_scalar s' = evaluate_scalar s
  | _, _ => d' = d
  end.
Definition moved_event (p n1 n2 : nat) (e e' : event) : Prop :=
  same_place p n1 n2 (ev_start e) (ev_start e') /\ same_place p n1 n2 (ev_end e) (ev_end e') /\
  same_kind (ev_data e) (ev_data e').

(** The same answers up to the end or the first failure, and the same failure. *)
Fixpoint moved_events (p n1 n2 : nat) (l l' : list (pres (option event))) : Prop :=
  match l, l' with
  | [], [] | Ok None :: _, Ok None :: _ => True
  | Ok (Some e) :: r, Ok (Some e') :: r' => moved_event p n1 n2 e e' /\ moved_events p n1 n2 r r'
  | Err e :: _, Err e' :: _ => e' = e
  | (Panic | Fuel) :: _, (Panic | Fuel) :: _ => True
  | _, _ => False
  end.
