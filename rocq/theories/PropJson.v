(** C47: JSON texts are read as the values they denote. *)
From Verif Require Import Parser SpecJson SpecUtf8 SpecContent JsonFacts JsonLazy SpecDefer SpecShown SpecOwned.
Open Scope nat_scope.

(** The events of a JSON text are those of its value, and there is no error.  Partial: ASCII
    texts, without escapes of two halves, each colon on the line of its name and at most 1024
    bytes from where the name begins.  The theorems below show that none of the three can be
    left out. *)
Theorem C47_json_partial :
  forall (t : str) (v : value) (debug : bool), all_ascii t -> plain_json t v ->
    exists es evs,
      run_events peek_source debug (List.length es + 1) parser0 (snd (events_new (Borrow t) false))
        = map (fun x => Ok (Some x)) es ++ [Ok None] /\
      map ev_data es = EvStreamStart :: evs ++ [EvStreamEnd] /\
      map shows evs = map Some (document v).
Proof. exact json_events. Qed.
Print Assumptions C47_json_partial.

(** The same from a byte source, in pieces of any sizes. *)
Theorem C47_json_source_partial :
  forall (t : str) (v : value) (src : Reader.source) (debug : bool),
    all_ascii t -> plain_json t v -> steady src -> bytes_of src = t ->
    exists es evs,
      run_events peek_source debug (List.length es + 1) parser0 (snd (events_new (Own (owned_new src)) false))
        = map (fun x => Ok (Some x)) es ++ [Ok None] /\
      map ev_data es = EvStreamStart :: evs ++ [EvStreamEnd] /\
      map shows evs = map Some (document v).
Proof. exact json_source_events. Qed.
Print Assumptions C47_json_source_partial.

(** The same with deferred scalars, once they are evaluated.  Partial: also no two
    backslashes in a row. *)
Theorem C47_lazy_partial :
  forall (t : str) (v : value) (debug : bool), all_ascii t -> no_double t -> plain_json t v ->
    exists es evs,
      run_events peek_source debug (List.length es + 1) parser0 (snd (events_new (Borrow t) true))
        = map (fun x => Ok (Some x)) es ++ [Ok None] /\
      map ev_data es = EvStreamStart :: evs ++ [EvStreamEnd] /\
      map shows_evaluated evs = map Some (document v).
Proof. exact json_lazy_events. Qed.
Print Assumptions C47_lazy_partial.

(** And with deferred scalars from a byte source.  Partial: also no carriage returns. *)
Theorem C47_lazy_source_partial :
  forall (t : str) (v : value) (src : Reader.source) (debug : bool),
    all_ascii t -> no_double t -> ~ In 13%N t -> plain_json t v -> steady src -> bytes_of src = t ->
    exists es evs,
      run_events peek_source debug (List.length es + 1) parser0 (snd (events_new (Own (owned_new src)) true))
        = map (fun x => Ok (Some x)) es ++ [Ok None] /\
      map ev_data es = EvStreamStart :: evs ++ [EvStreamEnd] /\
      map shows_evaluated evs = map Some (document v).
Proof. exact json_lazy_source_events. Qed.
Print Assumptions C47_lazy_source_partial.

(** Not all JSON texts of ASCII characters are read: the colon may be below its name, *)
Theorem C47_colon_below_refuted :
  exists t v, json t v /\ all_ascii t /\
    exists e, In (Err e) (run_events peek_source true 9 parser0 (snd (events_new (Borrow t) false))).
Proof. exact colon_below. Qed.
Print Assumptions C47_colon_below_refuted.

(** a character may be escaped as two halves, *)
Theorem C47_halves_refuted :
  exists t v, json t v /\ all_ascii t /\
    In Panic (run_events peek_source true 3 parser0 (snd (events_new (Borrow t) false))).
Proof. exact pair_panics. Qed.
Print Assumptions C47_halves_refuted.

(** and strings may have characters that are not ASCII. *)
Theorem C47_wide_refuted :
  exists t v, json t v /\ In Panic (run_events peek_source true 3 parser0 (snd (events_new (Borrow t) false))).
Proof. exact wide_panics. Qed.
Print Assumptions C47_wide_refuted.

(** Nested values over several lines, with escapes. *)
Example C47_example :
  all_ascii json_sample /\ plain_json json_sample json_value /\
  steady (map (fun c => Data [c]) json_sample) /\ bytes_of (map (fun c => Data [c]) json_sample) = json_sample /\
  List.length (document json_value) = 13.
Proof.
  split; [exact (proj1 sample_json)|]. split; [exact (proj2 sample_json)|].
  split; [|split; vm_compute; reflexivity]. vm_compute. repeat (constructor; [eexists; eexists; reflexivity|]). constructor.
Qed.

(** A line with an escape. *)
Example C47_lazy_example :
  all_ascii json_line /\ no_double json_line /\ ~ In 13%N json_line /\ plain_json json_line line_value /\
  steady [Data json_line] /\ bytes_of [Data json_line] = json_line.
Proof.
  split; [repeat constructor|]. split; [exact line_no_double|]. split; [vm_compute; intuition discriminate|]. split; [exact line_json|].
  split; [constructor; [eexists; eexists; reflexivity|constructor]|reflexivity].
Qed.
