(** Properties C20 and C44: the events of texts read with deferred scalars. *)
From Verif Require Import SpecContent SpecYaml SpecDeferYaml DeferEvents DeferYaml YamlExample.
Open Scope nat_scope.

(** C20 for the iterator of events: the events with deferred scalars are those without,
    one by one, at the same positions, and each deferred scalar evaluates to the one read
    at once; if the parser rejects the tokens, both fail with the same error, and if the
    one without deferred scalars ends, so does the other.  Partial: ASCII texts without
    two backslashes in a row, and block scalars may lack the line break at their end. *)
Theorem C20_events_partial :
  forall (t : str) (debug : bool) (n : nat), all_ascii t -> no_double t ->
    follows (run_events peek_source debug n parser0 (snd (events_new (Borrow t) false)))
            (run_events peek_source debug n parser0 (snd (events_new (Borrow t) true))).
Proof. exact deferred_events. Qed.
Print Assumptions C20_events_partial.

(** The scalars of the events, and how many are deferred. *)
Definition scalars (l : list (pres (option event))) : list scalar_like :=
  flat_map (fun x => match x with Ok (Some e) => match ev_data e with EvScalar _ s => [s] | _ => [] end | _ => [] end) l.
Definition deferrals (l : list scalar_like) : nat :=
  List.length (filter (fun s => match s with LazyS _ => true | _ => false end) l).
Definition events_of (t : str) (lazy : bool) := run_events peek_source true 13 parser0 (snd (events_new (Borrow t) lazy)).
Definition quoted_text : str := bytes "- 'a''b'" ++ [10%N] ++ bytes "- &x c d" ++ [10%N] ++ bytes "- >" ++ [10%N] ++ bytes " e".
Example C20_events_example :
  all_ascii quoted_text /\ no_double quoted_text /\
  nth 9 (events_of quoted_text true) Fuel = Ok None /\ nth 8 (events_of quoted_text true) Fuel <> Ok None /\
  deferrals (scalars (events_of quoted_text false)) = 0 /\ deferrals (scalars (events_of quoted_text true)) = 3 /\
  map evaluate_scalar (scalars (events_of quoted_text true)) = map evaluate_scalar (scalars (events_of quoted_text false)).
Proof.
  split; [repeat constructor|]. split; [apply no_backslash; reflexivity|].
  vm_compute. split; [reflexivity|]. split; [discriminate|]. split; [reflexivity|]. split; reflexivity.
Qed.

(** C44 with deferred scalars: for the same streams of documents as before, the events are
    those the grammar says, once their scalars are evaluated; block scalars may lack the
    line break at their end (C20_block_refuted).  Missing: two backslashes in a row, and
    what is missing without deferred scalars. *)
Theorem C44_lazy_partial :
  forall (t : str) (e : list deed) (debug : bool), all_ascii t -> no_double t -> stream t e ->
    exists es evs,
      run_events peek_source debug (List.length es + 1) parser0 (snd (events_new (Borrow t) true))
        = map (fun x => Ok (Some x)) es ++ [Ok None] /\
      map ev_data es = EvStreamStart :: evs ++ [EvStreamEnd] /\
      Forall2 shows_lazily e evs.
Proof. exact lazy_stream_events. Qed.
Print Assumptions C44_lazy_partial.

(** The sample of C44, with its deferred scalars. *)
Example C44_lazy_example : all_ascii sample /\ no_double sample /\ stream sample sample_deeds.
Proof. split; [repeat constructor|]. split; [apply no_backslash; reflexivity|exact sample_is]. Qed.
