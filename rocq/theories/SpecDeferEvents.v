(** Events of readers that defer scalars. *)
From Verif Require Export SpecDefer Parser.

(** The same event, with the same scalar once evaluated; block scalars, that is scalars
    introduced by a bar or an angle bracket, may lack the line break at their end. *)
Definition same_data (d d' : event_data) : Prop :=
  match d, d' with
  | EvScalar n s, EvScalar n' s' => n' = n /\
      exists c c' k, evaluate_scalar s = Ok (c, k) /\ evaluate_scalar s' = Ok (c', k) /\
        (c' = c \/ (k = Literal \/ k = Folded) /\ up_to_break c c')
  | _, _ => d' = d
  end.
Definition same_event (e e' : event) : Prop :=
  ev_start e' = ev_start e /\ ev_end e' = ev_end e /\ same_data (ev_data e) (ev_data e').

(** The second list of answers follows the first one up to its end or first failure; a
    failure of the parser is also the same, one of the scanner need not be. *)
Fixpoint follows (l l' : list (pres (option event))) : Prop :=
  match l, l' with
  | [], [] => True
  | Ok (Some e) :: r, Ok (Some e') :: r' => same_event e e' /\ follows r r'
  | Ok None :: _, x :: _ => x = Ok None
  | Err e :: _, x :: _ => (forall s, e <> ParserScan s) -> x = Err e
  | Panic :: _, _ :: _ | Fuel :: _, _ :: _ => True
  | _, _ => False
  end.
