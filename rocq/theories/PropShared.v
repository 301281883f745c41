(** C51: several iterators over one reader. *)
From Verif Require Import SpecShared SharedFacts.
Open Scope nat_scope.

(** C51, for borrowed text: however the calls of the iterators alternate, each of them
    gives the answers it gives alone. *)
Theorem C51_borrowed :
  forall (t : str) (debug : bool) (modes : list bool) (schedule : list nat) (k : nat) (lazy : bool),
    nth_error modes k = Some lazy ->
    answers_of k (interleave debug (Borrow t) (map (iterator_new (Borrow t)) modes) schedule)
    = run_events peek_source debug (calls_of k schedule) parser0 (snd (events_new (Borrow t) lazy)).
Proof. exact borrowed_shared. Qed.
Print Assumptions C51_borrowed.

(** Refuted for byte sources: there, iterators take the text from each other.  Two that are
    called in turn both come to a regular end, the second of them after fewer events than
    alone, and there is no error. *)
Theorem C51_sources_refuted :
  exists (src : Reader.source) (schedule : list nat),
    let i := Own (owned_new src) in
    let xs := interleave false i [iterator_new i false; iterator_new i false] schedule in
    let ys := run_events peek_source false (calls_of 1 schedule) parser0 (snd (events_new i false)) in
    (forall e, ~ In (Err e) (answers_of 1 xs) /\ ~ In (Err e) ys) /\
    nth_error (answers_of 1 xs) 8 = Some (Ok None) /\ nth_error ys 9 = Some (Ok None) /\
    exists e, nth_error ys 8 = Some (Ok (Some e)).
Proof. exact alternating. Qed.
Print Assumptions C51_sources_refuted.

(** Three iterators over a text, one of them lazy, in some order. *)
Example C51_example :
  let i := Borrow (bytes "[a, b]") in
  let xs := interleave false i (map (iterator_new i) [false; true; false]) [0; 1; 1; 0; 2; 0; 0; 1; 1; 0; 2; 0] in
  nth_error [false; true; false] 1 = Some true /\
  map fst xs = [0; 1; 1; 0; 2; 0; 0; 1; 1; 0; 2; 0] /\ List.length (answers_of 1 xs) = 4 /\
  (exists n d s e, nth_error (answers_of 1 xs) 3 = Some (Ok (Some (mkEvent s e (EvScalar n (LazyS d)))))) /\
  (exists n c s e, nth_error (answers_of 0 xs) 3 = Some (Ok (Some (mkEvent s e (EvScalar n (Eager c Plain)))))).
Proof.
  cbv zeta. split; [reflexivity|]. split; [vm_compute; reflexivity|]. split; [vm_compute; reflexivity|].
  split; do 4 eexists; vm_compute; reflexivity.
Qed.
