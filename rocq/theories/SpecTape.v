(** Tokens on a tape. *)
From Verif Require Export Parser PeekFacts.

(** A source that delivers the tokens of a list and then either ends or fails. *)
Definition tape := (list entry * rres unit)%type.
Definition tape_end (x : rres unit) : rres (option entry) :=
  match x with Ok _ => Ok None | Err e => Err e | Panic => Panic | Fuel => Fuel end.
Definition tape_next (t : tape) : rres (option entry) :=
  match fst t with e :: _ => Ok (Some e) | [] => tape_end (snd t) end.
Definition tape_source : token_source tape :=
  mkSource _ (fun t => (t, tape_next t)) (fun t => ((tl (fst t), snd t), tape_next t)) (fun t => List.length (fst t)).

(** The reader delivers the tokens on the tape, when it is only asked to take. *)
Definition on_tape (p : peek_reader) (t : tape) : Prop :=
  taken p (List.length (fst t) + 1) = map (fun e => Ok (Some e)) (fst t) ++ [tape_end (snd t)].

(** The results up to the first that is not an event. *)
Fixpoint until_failure {A} (l : list (pres (option A))) : list (pres (option A)) :=
  match l with
  | [] => []
  | Ok (Some e) :: l => Ok (Some e) :: until_failure l
  | x :: _ => [x]
  end.
