(** C45, C09, C10: the event iterator over a text. *)
From Verif Require Import SpecTape SpecUtf8 TapeStream EventCount.
Open Scope nat_scope.

(** C45: taking from the reader of a text gives certain tokens [l] and then the end or
    a failure, [x].  The events are those the parser gives for [l] and [x], up to the
    first answer that is no event; if [x] is the end, they are altogether those of the
    list [l]. *)
Theorem C45_events_of_tokens :
  forall (t : str) (lazy debug : bool), well_formed t ->
    let r := snd (events_new (Borrow t) lazy) in
    exists l x, on_tape r (l, x) /\ x <> Fuel /\
      (forall n, until_failure (run_events peek_source debug n parser0 r) =
                 until_failure (run_events tape_source debug n parser0 (l, x))) /\
      (x = Ok tt -> forall n, run_events peek_source debug n parser0 r = run_events list_source debug n parser0 l).
Proof. exact text_events. Qed.
Print Assumptions C45_events_of_tokens.

(** C09: iterating over the events of a text comes, after a number of events that is
    linear in its length, to an end, an error or a panic. *)
Theorem C09_events_end :
  forall (t : str) (lazy debug : bool), well_formed t ->
    exists k x, k <= 18 * List.length t + 13 /\ x <> Fuel /\ (forall e, x <> Ok (Some e)) /\
      forall n, k < n ->
        let xs := run_events peek_source debug n parser0 (snd (events_new (Borrow t) lazy)) in
        nth_error xs k = Some x /\ forall i, i < k -> exists e, nth_error xs i = Some (Ok (Some e)).
Proof. exact text_ends. Qed.
Print Assumptions C09_events_end.

(** A text with five events, and one that fails after the fourth. *)
Example C45_example :
  let r := snd (events_new (Borrow (bytes "a")) false) in
  let l := [mkEntry (Tok TStreamStart) 0; mkEntry (Tok (TScalar (Borrowed [97%N]) Plain)) 1; mkEntry (Tok TStreamEnd) 1] in
  on_tape r (l, Ok tt) /\
    map (fun x => match x with Ok (Some e) => true | _ => false end)
      (run_events list_source false 7 parser0 l) = [true; true; true; true; true; false; false].
Proof. split; vm_compute; reflexivity. Qed.
Example C45_example_failing :
  let r := snd (events_new (Borrow (bytes "[a, `")) false) in
  let t := ([mkEntry (Tok TStreamStart) 0; mkEntry (Tok TFlowSequenceStart) 1;
            mkEntry (Tok (TScalar (Borrowed [97%N]) Plain)) 2; mkEntry (Tok TFlowEntry) 3], Err (RScan UnknownDelimiter)) in
  on_tape r t /\
    map (fun x => match x with Ok (Some e) => true | _ => false end)
      (run_events tape_source false 6 parser0 t) = [true; true; true; true; false; false].
Proof. split; vm_compute; reflexivity. Qed.
