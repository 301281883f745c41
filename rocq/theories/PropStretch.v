(** Property C53: the events between two errors. *)
From Verif Require Import SpecGrammar StretchFacts.

(** C53: for every source and wherever a consumer begins to listen, also behind an
    error of any kind, the events up to the next error are a contiguous stretch of
    some sentence of the documented grammar. *)
Theorem C53_stretches :
  forall (R : Type) (T : token_source R) (debug : bool) (n i : nat) (r : R),
    let results := run_events T debug n parser0 r in
    exists before after,
      wf_stream (before ++ map ev_data (delivered (skipn i results)) ++ after).
Proof. exact stretch. Qed.
Print Assumptions C53_stretches.

(** ** The hypotheses are met *)

(** A text with two errors in the middle: the events behind them end the sequence, the
    document and the stream. *)
Example behind_errors :
  let '(p, r) := events_new (Borrow (bytes "- a" ++ 10%N :: bytes "b")) false in
  let results := run_events peek_source false 9 p r in
  map (fun x => match x with Ok (Some _) => true | _ => false end) results
  = [true; true; true; false; false; true; true; true; false] /\
  map ev_data (delivered (skipn 5 results)) =
    [EvSequenceEnd; EvDocumentEnd true; EvStreamEnd].
Proof. vm_compute. split; reflexivity. Qed.

(** Not every list of events is such a stretch: an end that does not match is not. *)
Example not_a_stretch :
  ~ exists before after,
      wf_stream (before ++ [EvDocumentStart default_directives true; EvSequenceEnd] ++ after).
Proof.
  intros (b & a & H). apply stream_placed in H.
  assert (X : forall b c, placed c (b ++ [EvDocumentStart default_directives true; EvSequenceEnd] ++ a) = false).
  { clear. induction b as [|e b IH]; intros c; [reflexivity|].
    cbn [app placed]. destruct e; rewrite ?IH; auto.
    all: repeat match goal with |- context [match ?x with _ => _ end] => destruct x end; auto using Bool.andb_false_r. }
  rewrite X in H. discriminate.
Qed.
