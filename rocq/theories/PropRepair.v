(** Property C52: what an undefined tag costs. *)
From Verif Require Import SpecRepair RepairFacts.

(** C52: an undefined tag costs one event.  If an event with an undefined tag is put
    in the place of every [UndefinedTag] error, then for every source the events up
    to the first other error are a prefix of a sentence of the documented grammar,
    and a whole sentence as soon as [StreamEnd] was delivered or iteration ended. *)
Theorem C52_undefined_tag_costs_one_event :
  forall (R : Type) (T : token_source R) (debug : bool) (n : nat) (r : R),
    let results := run_events T debug n parser0 r in
    exists events rest,
      repaired default_directives results events /\
      wf_stream (events ++ rest) /\
      (In EvStreamEnd events -> rest = []) /\
      (nth_error results (List.length events) = Some (Ok None) -> rest = []).
Proof. exact repair. Qed.
Print Assumptions C52_undefined_tag_costs_one_event.

(** The other answers do not depend on it: from any state, under two sets of
    directives, the answers of any number of calls are the same, apart from tagged
    events whose handle only one of the two defines. *)
Theorem C52_other_events_unaffected :
  forall (R : Type) (T : token_source R) (debug : bool) (d1 d2 : directives)
         (n : nat) (p : parser) (r : R),
    Forall2 (same_but_tag d1 d2) (run_events T debug n (set_dirs d1 p) r)
                                 (run_events T debug n (set_dirs d2 p) r).
Proof. exact same_run. Qed.
Print Assumptions C52_other_events_unaffected.

(** The full statement asks that the events that are delivered are a sentence also
    without the lost ones, as the documented loop over
    [events.iter().filter_map(Result::ok)] sees them (src/event/mod.rs:124, 177, 255).
    That is refuted: iteration ends, and the events delivered are no prefix of a
    sentence.  The sequence of the witness is closed without having been opened. *)
Theorem C52_skipping_refuted :
  exists text : string,
    let '(p, r) := events_new (Borrow (bytes text)) false in
    let results := run_events peek_source false 12 p r in
    nth_error results 11 = Some (Ok None) /\
    ~ exists rest, wf_stream (map ev_data (all_events results) ++ rest).
Proof.
  exists "k: !x!a [b]"%string. cbv zeta. split; [vm_compute; reflexivity|].
  intros [rest H]. apply stream_placed, placed_app in H. revert H. vm_compute. discriminate.
Qed.
Print Assumptions C52_skipping_refuted.

(** ** The hypotheses are met *)

(** The events of the witness: with the lost event put back they are a sentence. *)
Example lost_start :
  let '(p, r) := events_new (Borrow (bytes "k: !x!a [b]")) false in
  let results := run_events peek_source false 12 p r in
  nth_error results 4 = Some (Err UndefinedTag) /\
  exists events,
    repaired default_directives results events /\
    nth_error events 4 =
      Some (EvSequenceStart
              (mkNode None (Some (Borrowed (bytes "!x!"), Borrowed (bytes "a"))) Value)) /\
    skipn 5 events =
      [EvScalar (mkNode None None Entry) (Eager (Borrowed (bytes "b")) Plain);
       EvSequenceEnd; EvMappingEnd; EvDocumentEnd true; EvStreamEnd].
Proof.
  vm_compute events_new. cbv zeta beta iota. split; [vm_compute; reflexivity|].
  match goal with |- exists _, repaired _ ?l _ /\ _ =>
    let v := eval vm_compute in l in
    replace l with v by (vm_compute; reflexivity) end.
  eexists. split; [|split].
  { do 4 (apply repaired_event). cbn [active fold_left ev_data].
    eapply (repaired_lost _ (EvSequenceStart
              (mkNode None (Some (Borrowed (bytes "!x!"), Borrowed (bytes "a"))) Value)));
      [reflexivity|vm_compute; reflexivity|].
    do 5 (apply repaired_event).
    apply repaired_stop; discriminate. }
  all: vm_compute; reflexivity.
Qed.

(** Two sets of directives for the same rest of a text: only the tagged event differs. *)
Example directives_differ :
  let '(p, r) := events_new (Borrow (bytes "[!x!a b, c]")) false in
  let '(p, r, _) := next_event peek_source false p r in
  let '(p, r, _) := next_event peek_source false p r in
  let with_x := mkDirs (d_version default_directives)
                  [(Borrowed (bytes "!x!"), Borrowed (bytes "tag:x"))] in
  let calls d := map (fun x => match x with Ok (Some _) => true | _ => false end)
                   (run_events peek_source false 4 (set_dirs d p) r) in
  calls default_directives = [true; false; true; true] /\
  calls with_x = [true; true; true; true].
Proof. vm_compute. split; reflexivity. Qed.
