(** Properties C01-C04: event streams, for every token source. *)
From Verif Require Import SpecGrammar ParserFacts.

(** C01: up to its first error an event stream is a prefix of a sentence of the
    documented grammar; it is a whole sentence as soon as [StreamEnd] was delivered
    or iteration ended with [None]. *)
Theorem C01_event_grammar :
  forall (R : Type) (T : token_source R) (debug : bool) (n : nat) (r : R),
    let results := run_events T debug n parser0 r in
    let events := map ev_data (delivered results) in
    exists rest,
      wf_stream (events ++ rest) /\
      (In EvStreamEnd events -> rest = []) /\
      (nth_error results (List.length (delivered results)) = Some (Ok None) -> rest = []).
Proof. exact grammar. Qed.
Print Assumptions C01_event_grammar.

(** The documented productions (src/event/mod.rs:35-41) do not let an alias be the
    whole document, the parser does: [document := DocumentStart content? DocumentEnd]
    is refuted. *)
Theorem C01_documented_root_refuted :
  exists text : string,
    let '(p, r) := events_new (Borrow (bytes text)) false in
    map ev_data (delivered (run_events peek_source false 8 p r)) =
      [EvStreamStart; EvDocumentStart default_directives true;
       EvAlias (Borrowed (bytes "a")); EvDocumentEnd true; EvStreamEnd].
Proof. exists "*a "%string; vm_compute; reflexivity. Qed.
Print Assumptions C01_documented_root_refuted.

(** C02: once [StreamEnd] or [None] was delivered only [None] follows; so [StreamEnd]
    occurs at most once and is last. *)
Theorem C02_fused :
  forall (R : Type) (T : token_source R) (debug : bool) (n : nat) (r : R) (i : nat),
    let results := run_events T debug n parser0 r in
    (nth_error results i = Some (Ok None) \/
     exists e, nth_error results i = Some (Ok (Some e)) /\ ev_data e = EvStreamEnd) ->
    forall j, i < j -> j < n -> nth_error results j = Some (Ok None).
Proof. exact (fun R T debug n r i => run_fused R T debug n parser0 r i). Qed.
Print Assumptions C02_fused.

(** C02, second half: while the source is exhausted (peeking and popping deliver
    nothing) the iterator delivers no event, whatever happened before: only [None]
    once it is done, else the end-of-file error. *)
Theorem C02_exhausted_source :
  forall (R : Type) (T : token_source R) (debug : bool) (dead : R -> Prop),
    (forall r, dead r -> exists r', ts_look T r = (r', Ok None) /\ dead r') ->
    (forall r, dead r -> exists r', ts_pop T r = (r', Ok None) /\ dead r') ->
    forall n p r, dead r ->
      run_events T debug n p r = repeat (if ps_done p then Ok None else Err ParserEOF) n.
Proof. exact run_dead. Qed.
Print Assumptions C02_exhausted_source.

(** C03: every node event carries the placement its position calls for. *)
Theorem C03_placement :
  forall (R : Type) (T : token_source R) (debug : bool) (n : nat) (r : R),
    placed [] (map ev_data (delivered (run_events T debug n parser0 r))) = true.
Proof. exact placement. Qed.
Print Assumptions C03_placement.

(** C04: the handle of every delivered tag is defined by the directives of the last
    document start before it, also when errors were skipped in between. *)
Theorem C04_tags_resolve :
  forall (R : Type) (T : token_source R) (debug : bool) (n : nat) (r : R),
    let results := run_events T debug n parser0 r in
    forall i e handle suffix,
      nth_error results i = Some (Ok (Some e)) ->
      event_tag (ev_data e) = Some (handle, suffix) ->
      tag_get (d_tags (active default_directives
                         (map ev_data (all_events (firstn i results))))) (cow_str handle)
      <> None.
Proof.
  exact (fun R T debug n r =>
    tags_resolve_from R T debug n parser0 r default_directives (fun h => conj (fun x => x) (fun x => x))).
Qed.
Print Assumptions C04_tags_resolve.

(** ** The hypotheses are met *)

(** A stream with two documents, directives, properties and both collection
    styles: 25 results, all events but the last. *)
Definition sample : string :=
  "%TAG !e! tag:e:
---
a: !e!x [1, {b: c}]
&n k:
- !!str d
- *n
...
---
[e]
".

Example sample_runs :
  let '(p, r) := events_new (Borrow (bytes sample)) false in
  let results := run_events peek_source false 30 p r in
  List.length (delivered results) = 24 /\
  nth_error results 24 = Some (Ok None) /\
  nth_error results 4 = Some (Ok (Some (mkEvent 27 29
    (EvSequenceStart
       (mkNode None (Some (Borrowed (bytes "!e!"), Borrowed (bytes "x"))) Value))))) /\
  nth_error results 23 = Some (Ok (Some (mkEvent 73 73 EvStreamEnd))).
Proof. vm_compute. repeat split. Qed.

(** The empty list is an exhausted source. *)
Example list_source_dead : forall l, l = [] ->
  exists l', ts_pop list_source l = (l', Ok None) /\ l' = [].
Proof. intros l ->; exists []; split; reflexivity. Qed.
