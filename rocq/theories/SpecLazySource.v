(** Events with deferred scalars from byte sources. *)
From Verif Require Export SpecOwned Parser SpecTape.

(** The event with the option to ask for more text taken out of a deferred block scalar. *)
Definition settled_scalar (s : scalar_like) : scalar_like :=
  match s with
  | LazyS (DBlock o t st i f) => LazyS (DBlock (no_extend o) t st i f)
  | _ => s
  end.
Definition settled_event (e : event) : event :=
  mkEvent (ev_start e) (ev_end e) (match ev_data e with EvScalar n s => EvScalar n (settled_scalar s) | d => d end).
Definition settled_answer (x : pres (option event)) : pres (option event) :=
  match x with Ok (Some e) => Ok (Some (settled_event e)) | _ => x end.
