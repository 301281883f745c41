(** What the events of a reader that defers scalars show. *)
From Verif Require Export SpecYaml SpecDeferEvents.
Open Scope nat_scope.

(** The event with its scalar evaluated. *)
Definition evaluated (d : event_data) : option event_data :=
  match d with
  | EvScalar n s => match evaluate_scalar s with Ok (c, k) => Some (EvScalar n (Eager c k)) | _ => None end
  | _ => Some d
  end.
(** The second is the first one; a block scalar may lack its last line break. *)
Definition may_lack_break (d d' : deed) : Prop :=
  d' = d \/ exists n v x k, (k = Literal \/ k = Folded) /\ (x = 10%N \/ x = 13%N) /\ d = Text n (v ++ [x]) k /\ d' = Text n v k.
Definition shows_lazily (d : deed) (ev : event_data) : Prop :=
  exists ev' d', evaluated ev = Some ev' /\ shows ev' = Some d' /\ may_lack_break d d'.
