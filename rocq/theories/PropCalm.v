(** C19: the event iterator over a text. *)
From Verif Require Import SpecTape SpecUtf8 SpecStream SpecHarmless HarmlessFacts.
Open Scope nat_scope.

(** C19: in a release build, iterating over the events of a text gives no panic before the
    end or the first error, if no consumer of its tokens sees one: the parser adds none. *)
Theorem C19_parser_calm :
  forall (t : str) (lazy : bool), well_formed t ->
    (forall s l x, consumes (open t (as_scanner lazy)) s = (l, x) -> x <> Panic) ->
    forall n, ~ In Panic (until_failure (run_events peek_source false n parser0 (snd (events_new (Borrow t) lazy)))).
Proof. exact text_calm. Qed.
Print Assumptions C19_parser_calm.

(** C19, for harmless texts.  Missing: as in C19_no_panic_partial, and calls after an error. *)
Theorem C19_events_partial :
  forall (t : str) (lazy : bool) (n : nat), harmless lazy t ->
    ~ In Panic (until_failure (run_events peek_source false n parser0 (snd (events_new (Borrow t) lazy)))).
Proof. exact harmless_events. Qed.
Print Assumptions C19_events_partial.

(** C19 is false of the parser in a debug build: an assertion fails on [a: 'b' 'c']. *)
Theorem C19_assertion_refuted :
  exists t : str, harmless false t /\
    nth_error (run_events peek_source true 7 parser0 (snd (events_new (Borrow t) false))) 6 = Some Panic.
Proof. exact failing_assertion. Qed.
Print Assumptions C19_assertion_refuted.

(** A harmless text and its answers: seven events and an error. *)
Example C19_events_example :
  let t := bytes "[a: 'b' 'c']" in
  harmless false t /\
    map (fun x => match x with Ok (Some e) => true | _ => false end)
      (until_failure (run_events peek_source false 12 parser0 (snd (events_new (Borrow t) false)))) =
    [true; true; true; true; true; true; true; false].
Proof. split; [apply harmlessb_harmless|]; vm_compute; reflexivity. Qed.
