(** Property C54: errors of the source reach the consumer. *)
From Verif Require Import SpecLogged LoggedFacts.

(** C54: whatever the source does, the errors it answers are exactly the read errors
    the consumer gets: in the same order, none swallowed, none repeated, none made up.
    The watched source answers as the source itself does, so the statement is about
    the iterator over the source. *)
Theorem C54_errors_reach_consumer :
  forall (R : Type) (T : token_source R) (debug : bool) (n : nat) (r : R),
    let '((_, log), results) := run_watched (logged T) debug n parser0 (r, []) in
    results = run_events T debug n parser0 r /\
    read_errors results = map parse_error_of_reader log.
Proof. exact no_error_swallowed. Qed.
Print Assumptions C54_errors_reach_consumer.

(** ** The hypotheses are met *)

(** Nine calls over a text: the source answers one error, the consumer gets two, the
    second of which is the parser's own. *)
Example one_of_two :
  let '(p, r) := events_new (Borrow (bytes "- a" ++ 10%N :: bytes "b")) false in
  let '((_, log), results) := run_watched (logged peek_source) false 9 p (r, []) in
  map parse_error_of_reader log = read_errors results /\
  List.length log = 1 /\
  map (fun x => match x with Ok (Some _) => true | _ => false end) results
  = [true; true; true; false; false; true; true; true; false].
Proof. vm_compute. repeat split. Qed.

(** A text whose error is answered again and again is logged each time. *)
Example repeated :
  let '(p, r) := events_new (Borrow (bytes """\q""")) false in
  let '((_, log), results) := run_watched (logged peek_source) false 6 p (r, []) in
  List.length log = List.length (read_errors results) /\ 3 <= List.length log.
Proof. vm_compute. split; [reflexivity|repeat constructor]. Qed.
