(** Property C40: the events of texts that differ in white space and comments. *)
From Verif Require Import SpecUtf8 SpecGapEvents GapEvents Utf8Facts.
Open Scope nat_scope.

(** C40 for the iterator of events, at the beginning: whatever the first lines of white
    space and comments hold, the events, their scalars and the failure are the same, and
    all positions move together.  Partial as [C40_leading_partial]: comments are ASCII and
    the last such line leaves the same number of spaces and tabs. *)
Theorem C40_leading_events_partial :
  forall (t w1 w2 : str) (x1 x2 : bool) (k : nat) (lazy debug : bool) (n : nat),
    well_formed (w1 ++ t) -> well_formed (w2 ++ t) -> well_formed t ->
    filler t w1 x1 k -> filler t w2 x2 k ->
    moved_events 0 (List.length w1) (List.length w2)
      (run_events peek_source debug n parser0 (snd (events_new (Borrow (w1 ++ t)) lazy)))
      (run_events peek_source debug n parser0 (snd (events_new (Borrow (w2 ++ t)) lazy))).
Proof. exact leading_events. Qed.
Print Assumptions C40_leading_events_partial.

(** C40 for the iterator of events, between two tokens: from there on, in whatever state
    the parser is, the events are the same.  Partial as [C40_between_partial]. *)
Theorem C40_between_events_partial :
  forall (a t w1 w2 : str) (x : bool) (k : nat) (o : flags) s0 l r1 l' r2 (debug : bool) (n : nat) (p : parser),
    well_formed (a ++ w1 ++ t) -> well_formed (a ++ w2 ++ t) -> well_formed t ->
    filler t w1 x k -> filler t w2 x k ->
    consumes (open (a ++ w1 ++ t) o) s0 = (l, Ok r1) ->
    consumes (open (a ++ w2 ++ t) o) s0 = (l', Ok r2) ->
    r_sc r2 = r_sc r1 -> r_q r2 = r_q r1 ->
    sc_offset (r_sc r1) = List.length a -> sc_state (r_sc r1) <> SStart -> r_exhausted r2 = r_exhausted r1 ->
    moved_events (List.length a) (List.length w1) (List.length w2)
      (run_events peek_source debug n p (peek_new r1)) (run_events peek_source debug n p (peek_new r2)).
Proof. exact between_events. Qed.
Print Assumptions C40_between_events_partial.

(** Comments in front of a sequence of mappings. *)
Definition counted (l : list (pres (option event))) : nat :=
  List.length (filter (fun x => match x with Ok (Some _) => true | _ => false end) l).
Example leading_events_ok :
  let t := bytes "- a: 'b'" in
  let w1 := bytes " # note" ++ [10; 13; 10; 9; 32]%N in
  let w2 := bytes "  " in
  let evs w := run_events peek_source true 12 parser0 (snd (events_new (Borrow (w ++ t)) true)) in
  well_formed (w1 ++ t) /\ well_formed (w2 ++ t) /\ well_formed t /\
  filler t w1 true 2 /\ filler t w2 false 2 /\
  counted (evs w1) = 10 /\ counted (evs w2) = 10 /\ evs w1 <> evs w2.
Proof.
  cbv zeta. split; [apply valid_iff; reflexivity|]. split; [apply valid_iff; reflexivity|]. split; [apply valid_iff; reflexivity|].
  split; [|split; [apply fill_here; repeat constructor|vm_compute; split; [reflexivity|split; [reflexivity|discriminate]]]].
  apply (fill_line _ (bytes " ") (bytes "# note") [10%N] [13; 10; 9; 32]%N true 2).
  - repeat constructor.
  - right. exists (bytes " note"). split; [reflexivity|]. repeat constructor; discriminate.
  - discriminate.
  - reflexivity.
  - apply (fill_line _ [] [] [13; 10]%N [9; 32]%N false 2); [constructor|left; reflexivity|discriminate|reflexivity|].
    apply fill_here. repeat (constructor; [first [left; reflexivity|right; reflexivity]|]). constructor.
Qed.

(** A comment behind the colon against an empty line, the parser behind its first events. *)
Example between_events_ok :
  let a := bytes "a:" in
  let t := bytes "- b" in
  let w1 := bytes " # c" ++ [10%N] in
  let w2 := [10; 10]%N in
  well_formed (a ++ w1 ++ t) /\ well_formed (a ++ w2 ++ t) /\ well_formed t /\
  filler t w1 true 0 /\ filler t w2 true 0 /\
  exists l r1 r2, let s := [Fill; Fill; Pull] in
    consumes (open (a ++ w1 ++ t) (mkFlags false false)) s = (l, Ok r1) /\
    consumes (open (a ++ w2 ++ t) (mkFlags false false)) s = (l, Ok r2) /\
    r_sc r2 = r_sc r1 /\ r_q r2 = r_q r1 /\ sc_offset (r_sc r1) = List.length a /\ sc_state (r_sc r1) <> SStart /\ r_exhausted r2 = r_exhausted r1 /\
    exists p p1, next_event peek_source true parser0 (peek_new (open (a ++ w1 ++ t) (mkFlags false false))) = (p, p1, Ok (Some (mkEvent 0 0 EvStreamStart))) /\
      counted (run_events peek_source true 12 p (peek_new r1)) = 9.
Proof.
  cbv zeta. split; [apply valid_iff; reflexivity|]. split; [apply valid_iff; reflexivity|]. split; [apply valid_iff; reflexivity|].
  split; [|split].
  - apply (fill_line _ (bytes " ") (bytes "# c") [10%N] [] false 0); [repeat constructor|right|discriminate|reflexivity|apply (fill_here _ []); constructor].
    exists (bytes " c"). split; [reflexivity|]. repeat constructor; discriminate.
  - apply (fill_line _ [] [] [10%N] [10%N] true 0); [constructor|left; reflexivity|discriminate|reflexivity|].
    apply (fill_line _ [] [] [10%N] [] false 0); [constructor|left; reflexivity|discriminate|reflexivity|]. apply (fill_here _ []). constructor.
  - eexists _, _, _. split; [vm_compute; reflexivity|]. split; [vm_compute; reflexivity|]. split; [vm_compute; reflexivity|]. split; [vm_compute; reflexivity|].
    split; [vm_compute; reflexivity|]. split; [vm_compute; discriminate|]. split; [vm_compute; reflexivity|].
    eexists _, _. split; [vm_compute; reflexivity|vm_compute; reflexivity].
Qed.
