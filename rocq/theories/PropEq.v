(** C50: comparing events. *)
From Verif Require Import Parser SpecSame SpecMarks SpecUtf8 SpecContent EqFacts SpecOwned.
Open Scope nat_scope.

(** C50: two events, from whatever sources of tokens, compare equal exactly if they say
    the same at the same place. *)
Theorem C50_equal_events :
  forall (R R' : Type) (T : token_source R) (T' : token_source R') (debug debug' : bool) (n n' : nat)
    (p p' : parser) (r : R) (r' : R') (a b : event),
    In (Ok (Some a)) (run_events T debug n p r) -> In (Ok (Some b)) (run_events T' debug' n' p' r') ->
    event_eqb a b = true <-> same_event a b.
Proof. exact runs_equal. Qed.
Print Assumptions C50_equal_events.

(** To say the same is symmetric and transitive, and reflexive but for deferred scalars. *)
Theorem C50_laws :
  (forall a b, same_event a b -> same_event b a) /\
  (forall a b c, same_event a b -> same_event b c -> same_event a c) /\
  (forall e, same_event e e <-> ~ deferred_event e).
Proof. exact (conj same_symmetric (conj same_transitive same_reflexive)). Qed.
Print Assumptions C50_laws.

(** An event of a text that is read eagerly compares equal to itself. *)
Theorem C50_eager_reflexive :
  forall (t : str) (debug : bool) (n : nat) (e : event), well_formed t ->
    In e (first_events (run_events peek_source debug n parser0 (snd (events_new (Borrow t) false)))) ->
    event_eqb e e = true.
Proof. exact eager_equal. Qed.
Print Assumptions C50_eager_reflexive.

(** The events of a text compare equal to those from a byte source with this text. *)
Theorem C50_sources_equal :
  forall (t : str) (src : Reader.source) (debug : bool) (n : nat),
    well_formed t -> steady src -> bytes_of src = t -> all_ascii t \/ short t ->
    Forall2 (fun a b => event_eqb a b = true)
      (first_events (run_events peek_source debug n parser0 (snd (events_new (Borrow t) false))))
      (first_events (run_events peek_source debug n parser0 (snd (events_new (Own (owned_new src)) false)))).
Proof. exact poured_equal. Qed.
Print Assumptions C50_sources_equal.

(** Refuted: an event with a deferred scalar does not compare equal to itself. *)
Theorem C50_reflexive_refuted :
  exists (t : str) (e : event), well_formed t /\
    In e (first_events (run_events peek_source false 3 parser0 (snd (events_new (Borrow t) true)))) /\
    event_eqb e e = false.
Proof. exact deferred_unequal. Qed.
Print Assumptions C50_reflexive_refuted.

(** Two texts with the same events: the directives in another order, another escape. *)
Definition events_of (t : str) : list event :=
  first_events (run_events peek_source false 20 parser0 (snd (events_new (Borrow t) false))).
Definition one : str := bytes "%TAG !a! x" ++ [10%N] ++ bytes "%TAG !b! y" ++ [10%N] ++ bytes "--- ""b\x63""".
Definition two : str := bytes "%TAG !b! y" ++ [10%N] ++ bytes "%TAG !a! x" ++ [10%N] ++ bytes "--- ""\x62c""".
Example C50_example :
  List.length (events_of one) = 5 /\ List.length (events_of two) = 5 /\
  map (fun p => event_eqb (fst p) (snd p)) (combine (events_of one) (events_of two)) = [true; true; true; true; true] /\
  nth_error (events_of one) 1 <> nth_error (events_of two) 1 /\
  map (fun e => event_eqb (mkEvent 0 0 EvStreamStart) e) (events_of one) = [true; false; false; false; false].
Proof. repeat (split; [vm_compute; first [reflexivity|discriminate]|]). vm_compute. reflexivity. Qed.
