(** What an event shows once its scalar is evaluated. *)
From Verif Require Export SpecDeferYaml.

Definition shows_evaluated (ev : event_data) : option deed :=
  match evaluated ev with Some ev' => shows ev' | None => None end.
