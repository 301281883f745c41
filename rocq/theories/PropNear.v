(** Property C56: the parser reads one token ahead. *)
From Verif Require Import SpecNear NearFacts.

(** C56: after [n] calls over any tokens, the answers depend on no more than the tokens
    the parser has taken and the one behind them.  Whatever stands in the place of the
    rest of the tape, if only it begins with the same token, the answers are the same
    and exactly that rest is left. *)
Theorem C56_one_token_ahead :
  forall (tokens : list entry) (ending : rres unit) (debug : bool) (n : nat),
    ending <> Fuel ->
    let '(rest, answers) := run_watched tape_source debug n parser0 (tokens, ending) in
    answers = run_events tape_source debug n parser0 (tokens, ending) /\
    exists taken, tokens = taken ++ fst rest /\ snd rest = ending /\
      forall rest', alike rest rest' ->
        run_watched tape_source debug n parser0 (taken ++ fst rest', snd rest') = (rest', answers).
Proof. exact one_ahead. Qed.
Print Assumptions C56_one_token_ahead.

(** ** The hypotheses are met *)

(** After four calls over the tokens of [[a, b]] the first scalar has been delivered, and
    its comma has not been taken: the source may fail behind the comma. *)
Example comma_ahead :
  let tok t := mkEntry (Tok t) 0 in
  let scalar := tok (TScalar (Borrowed [97%N]) Plain) in
  let taken := [tok TStreamStart; tok TFlowSequenceStart; scalar] in
  let rest := [tok TFlowEntry; scalar; tok TFlowSequenceEnd; tok TStreamEnd] in
  let '(remaining, answers) := run_watched tape_source false 4 parser0 (taken ++ rest, Ok tt) in
  remaining = (rest, Ok tt) /\ alike remaining ([tok TFlowEntry], Err RIo) /\
  map (fun x => match x with Ok (Some _) => true | _ => false end) answers = [true; true; true; true] /\
  run_watched tape_source false 4 parser0 (taken ++ [tok TFlowEntry], Err RIo)
  = (([tok TFlowEntry], Err RIo), answers).
Proof. vm_compute. repeat split. exists []. reflexivity. Qed.
