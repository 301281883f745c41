(** C44: what documents stand for. *)
From Verif Require Import Parser SpecYaml SpecOwned YamlEvents YamlExample.
Open Scope nat_scope.

(** C44, for texts in ASCII that are a stream of documents of plain, quoted and block
    scalars, aliases, block and flow collections, with implicit and explicit keys, anchors, tags, comments, directives
    and document markers: the events are the start of the stream, what the grammar of
    SpecYaml says, and the end of the stream.
    Missing: other characters, verbatim tags, and the documents of the refutations below. *)
Theorem C44_streams_partial :
  forall (t : str) (e : list deed) (debug : bool), all_ascii t -> stream t e ->
    exists es evs,
      run_events peek_source debug (List.length es + 1) parser0 (snd (events_new (Borrow t) false))
        = map (fun x => Ok (Some x)) es ++ [Ok None] /\
      map ev_data es = EvStreamStart :: evs ++ [EvStreamEnd] /\
      map shows evs = map Some e.
Proof. exact stream_events. Qed.
Print Assumptions C44_streams_partial.

(** Three documents.  The first has a directive and is a mapping with a flow sequence with
    an anchor, a block scalar and a block sequence of an alias and a scalar with a tag as
    values.  The second is a mapping with an explicit key and the third is empty. *)
Example C44_example :
  all_ascii sample /\ stream sample sample_deeds /\ List.length sample_deeds = 24.
Proof. split; [repeat constructor|]. split; [exact sample_is|reflexivity]. Qed.

(** The same for a source of bytes that hands out such a text in pieces of any lengths. *)
Theorem C44_sources_partial :
  forall (t : str) (e : list deed) (src : Reader.source) (debug : bool),
    all_ascii t -> stream t e -> SpecOwned.steady src -> bytes_of src = t ->
    exists es evs,
      run_events peek_source debug (List.length es + 1) parser0 (snd (events_new (Own (owned_new src)) false))
        = map (fun x => Ok (Some x)) es ++ [Ok None] /\
      map ev_data es = EvStreamStart :: evs ++ [EvStreamEnd] /\
      map shows evs = map Some e.
Proof. exact source_events. Qed.
Print Assumptions C44_sources_partial.

(** The sample, byte by byte. *)
Example C44_sources_example :
  let src := map (fun x : N => Data [x]) sample in SpecOwned.steady src /\ bytes_of src = sample.
Proof. cbv zeta. split; [repeat constructor; eexists; eexists; reflexivity|reflexivity]. Qed.

(** The answers to [n] requests for events. *)
Definition answers (t : str) (n : nat) : list (pres (option event_data)) :=
  map (fun x => match x with Ok (Some e) => Ok (Some (ev_data e)) | Ok None => Ok None | Err e => Err e | Panic => Panic | Fuel => Fuel end)
    (run_events peek_source false n parser0 (snd (events_new (Borrow t) false))).

(** Refuted: within a flow collection a space may be replaced by a line break and
    spaces.  In a sequence that is as far to the left as the mapping it belongs to, it
    may not. *)
Theorem C44_spread_entry_refuted :
  exists a b : str,
    In (Ok None) (answers (a ++ [32%N] ++ b) 14) /\
    In (Err MissingNode) (answers (a ++ [10; 32; 32]%N ++ b) 14).
Proof.
  exists (bytes "a:" ++ [10%N] ++ bytes "- [b,"), (bytes "c]" ++ [10%N]).
  split; vm_compute; repeat first [left; reflexivity | right].
Qed.
Print Assumptions C44_spread_entry_refuted.

(** Refuted: the entry of such a sequence may begin on the line after the dash. *)
Theorem C44_entry_below_refuted :
  exists a b : str,
    In (Ok None) (answers (a ++ [32%N] ++ b) 14) /\
    In (Err MissingKey) (answers (a ++ [10; 32; 32]%N ++ b) 14).
Proof.
  exists (bytes "a:" ++ [10%N] ++ bytes "-"), (bytes "c" ++ [10%N]).
  split; vm_compute; repeat first [left; reflexivity | right].
Qed.
Print Assumptions C44_entry_below_refuted.

(** Refuted: a plain scalar that is a document is also an entry of a flow sequence.
    One that begins with [?] or [:] is split into an indicator and a scalar there. *)
Theorem C44_indicator_in_flow_refuted :
  forall c, In c [63; 58]%N ->
    In (Ok (Some (EvScalar (mkNode None None Root) (Eager (Borrowed [c; 97%N]) Plain)))) (answers [c; 97%N] 14) /\
    In (Ok None) (answers [91; c; 97; 93]%N 14) /\
    forall n w style, In (Ok (Some (EvScalar n (Eager w style)))) (answers [91; c; 97; 93]%N 14) -> cow_str w <> [c; 97%N].
Proof.
  intros c [<-|[<-|[]]]; (split; [|split]; [vm_compute; repeat first [left; reflexivity | right]..|]);
    intros n w style I; vm_compute in I; repeat (destruct I as [I|I]; [try discriminate; injection I as <- <- <-; discriminate|]); destruct I.
Qed.
Print Assumptions C44_indicator_in_flow_refuted.

(** Refuted: a sequence that is the value of a key may be indented or not.  If the next
    key begins with a dash, it may not be as far to the left as the key. *)
Theorem C44_dash_key_refuted :
  exists a b : str,
    In (Ok None) (answers (a ++ [32%N] ++ b) 14) /\
    In (Err MissingBlockEntry) (answers (a ++ b) 14).
Proof.
  exists (bytes "a:" ++ [10%N]), (bytes "- b" ++ [10%N] ++ bytes "-c: d" ++ [10%N]).
  split; vm_compute; repeat first [left; reflexivity | right].
Qed.
Print Assumptions C44_dash_key_refuted.

(** Refuted: if a key may be empty or a sequence with the indicator of explicit keys, it
    may without. *)
Theorem C44_empty_key_refuted :
  exists a b : str,
    In (Ok None) (answers (a ++ bytes "?" ++ [10%N] ++ b) 14) /\
    In (Err MissingKey) (answers (a ++ b) 14).
Proof.
  exists [], (bytes ": b" ++ [10%N]).
  split; vm_compute; repeat first [left; reflexivity | right].
Qed.
Print Assumptions C44_empty_key_refuted.

Theorem C44_flow_key_refuted :
  exists a b : str,
    In (Ok None) (answers (bytes "? " ++ a ++ [10%N] ++ b) 14) /\
    exists e, In (Err e) (answers (a ++ b) 14).
Proof.
  exists (bytes "[a]"), (bytes ": b" ++ [10%N]).
  split; [|exists (ParserScan InvalidValue)]; vm_compute; repeat first [left; reflexivity | right].
Qed.
Print Assumptions C44_flow_key_refuted.

(** Refuted: within a flow collection the space behind the indicator of an explicit key
    may be replaced by a line break and spaces. *)
Theorem C44_question_below_refuted :
  exists a b : str,
    In (Ok None) (answers (a ++ [32%N] ++ b) 14) /\
    In (Err MissingNode) (answers (a ++ [10; 32; 32]%N ++ b) 14).
Proof.
  exists (bytes "{?"), (bytes "a : b}" ++ [10%N]).
  split; vm_compute; repeat first [left; reflexivity | right].
Qed.
Print Assumptions C44_question_below_refuted.
