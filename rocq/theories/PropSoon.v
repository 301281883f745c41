(** Property C55: events do not depend on tokens that come later. *)
From Verif Require Import SpecTape SpecGrammar SpecUtf8 SoonFacts SoonText.

(** C55: the events delivered over tokens [a], after which the source fails, are the
    first answers over any source that delivers more tokens after [a], and ends or
    fails then.  So an event never has to be taken back. *)
Theorem C55_events_stand :
  forall (a b : list entry) (failure : reader_error) (ending : rres unit) (debug : bool) (n : nat),
    exists later,
      run_events tape_source debug n parser0 (a ++ b, ending) =
      map (fun e => Ok (Some e))
        (delivered (run_events tape_source debug n parser0 (a, Err failure))) ++ later.
Proof. exact (fun a b f x debug n => delivered_soon f b x debug n parser0 a). Qed.
Print Assumptions C55_events_stand.

(** The same for errors of the parser: the answers are all the same as long as none
    is the failure of the source. *)
Theorem C55_answers_stand :
  forall (a b : list entry) (failure : reader_error) (ending : rres unit) (debug : bool) (n : nat),
    Forall (fun x => x <> Err (parse_error_of_reader failure))
      (run_events tape_source debug n parser0 (a, Err failure)) ->
    run_events tape_source debug n parser0 (a ++ b, ending) =
    run_events tape_source debug n parser0 (a, Err failure).
Proof. exact (fun a b f x debug n => answers_soon f b x debug n a). Qed.
Print Assumptions C55_answers_stand.

(** The same for texts.  If the reader of [t] fails after the tokens [l], and that of
    [t'] gives the tokens [l] as well, then the events over [t] are the first events
    over [t'], as many as there are before the first answer that is no event. *)
Theorem C55_texts :
  forall (t t' : str) (lazy debug : bool) (l : list entry) (failure : reader_error) (n : nat) (es : list event),
    well_formed t -> well_formed t' ->
    let r := snd (events_new (Borrow t) lazy) in
    let r' := snd (events_new (Borrow t') lazy) in
    on_tape r (l, Err failure) ->
    taken r' (List.length l) = map (fun e => Ok (Some e)) l ->
    run_events peek_source debug n parser0 r = map (fun e => Ok (Some e)) es ->
    run_events peek_source debug n parser0 r' = map (fun e => Ok (Some e)) es.
Proof. exact text_soon. Qed.
Print Assumptions C55_texts.

(** ** The hypotheses are met *)

(** After the tokens of [[a,] four events have been delivered; the fifth call fails. *)
Example opened_sequence :
  let tok t := mkEntry (Tok t) 0 in
  let a := [tok TStreamStart; tok TFlowSequenceStart;
            tok (TScalar (Borrowed [97%N]) Plain); tok TFlowEntry] in
  List.length (delivered (run_events tape_source false 9 parser0 (a, Err RIo))) = 4 /\
  List.length (delivered (run_events tape_source false 9 parser0
                 (a ++ [tok TFlowSequenceEnd; tok TStreamEnd], Ok tt))) = 7.
Proof. vm_compute. split; reflexivity. Qed.

(** Six answers, of which the third is an error of the parser. *)
Example parser_error :
  let tok t := mkEntry (Tok t) 0 in
  let a := [tok TStreamStart; tok (TTag (Borrowed (bytes "!x!")) (Borrowed [97%N]));
            tok (TScalar (Borrowed [97%N]) Plain); tok TStreamEnd] in
  let xs := run_events tape_source false 6 parser0 (a, Err RIo) in
  nth_error xs 2 = Some (Err UndefinedTag) /\
  Forall (fun x => x <> Err (parse_error_of_reader RIo)) xs.
Proof.
  vm_compute. split; [reflexivity|]. repeat constructor; discriminate.
Qed.

(** A text that breaks off in a quoted scalar, and one where the scalar is complete. *)
Example mended_text :
  let r := snd (events_new (Borrow (bytes "[a, 'b")) false) in
  let r' := snd (events_new (Borrow (bytes "[a, 'b']")) false) in
  let l := [mkEntry (Tok TStreamStart) 0; mkEntry (Tok TFlowSequenceStart) 1;
            mkEntry (Tok (TScalar (Borrowed [97%N]) Plain)) 2; mkEntry (Tok TFlowEntry) 3] in
  on_tape r (l, Err (RScan UnexpectedEOF)) /\
  taken r' (List.length l) = map (fun e => Ok (Some e)) l /\
  exists es, List.length es = 4 /\
    run_events peek_source false 4 parser0 r = map (fun e => Ok (Some e)) es.
Proof.
  split; [|split].
  - vm_compute. reflexivity.
  - vm_compute. reflexivity.
  - exists (delivered (run_events peek_source false 4 parser0 (snd (events_new (Borrow (bytes "[a, 'b")) false)))).
    vm_compute. split; reflexivity.
Qed.
