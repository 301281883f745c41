(** C17, C45: the event iterator over a byte source. *)
From Verif Require Import SpecUtf8 SpecContent SpecTape SpecOwned OwnedEvents.
Open Scope nat_scope.

(** C17: whatever the lengths of the pieces in which a source hands out a text, the event
    iterator over the source gives the answers of the iterator over the text, up to the
    first failure; if there is none, for ever.  Partial: texts of ASCII characters or of
    at most 8192 bytes, and eager scanning. *)
Theorem C17_events_partial :
  forall (t : str) (src : Reader.source) (debug : bool),
    well_formed t -> steady src -> bytes_of src = t -> all_ascii t \/ short t ->
    forall n, let xs := run_events peek_source debug n parser0 (snd (events_new (Own (owned_new src)) false)) in
              let ys := run_events peek_source debug n parser0 (snd (events_new (Borrow t) false)) in
      until_failure xs = until_failure ys /\ (Forall (fun y => exists a, y = Ok a) ys -> xs = ys).
Proof. exact poured_events. Qed.
Print Assumptions C17_events_partial.

(** A mapping in pieces of one and two bytes: ten events. *)
Definition pieces : Reader.source := map Data [bytes "a"; bytes ": "; bytes "["; bytes "'b"; bytes "'"; bytes "]"; [10%N]].
Example C17_events_example :
  steady pieces /\ short (bytes_of pieces) /\
  map (fun x => match x with Ok (Some e) => true | _ => false end)
    (run_events peek_source false 12 parser0 (snd (events_new (Own (owned_new pieces)) false))) =
  [true; true; true; true; true; true; true; true; true; true; false; false].
Proof.
  split; [repeat constructor; eexists; eexists; reflexivity|]. split; [discriminate|]. vm_compute. reflexivity.
Qed.
