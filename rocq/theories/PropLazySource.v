(** C17, C44: the event iterator over a byte source, with deferred scalars. *)
From Verif Require Import SpecUtf8 SpecContent SpecLazySource SpecYaml SpecDeferYaml LazySource YamlExample LazySourceYaml SpecOwned.
Open Scope nat_scope.

(** C17 with deferred scalars, for the iterator of events: over a source the answers are
    those over the text, up to the first failure, with the one difference of
    [C17_lazy_partial]: the option to ask for more text that stays in deferred block
    scalars.  Partial: texts without carriage returns, of ASCII characters or of at most
    8192 bytes. *)
Theorem C17_lazy_events_partial :
  forall (t : str) (src : Reader.source) (debug : bool),
    well_formed t -> steady src -> bytes_of src = t -> ~ In 13%N t -> all_ascii t \/ short t ->
    forall n, let xs := run_events peek_source debug n parser0 (snd (events_new (Own (owned_new src)) true)) in
              let ys := run_events peek_source debug n parser0 (snd (events_new (Borrow t) true)) in
      until_failure ys = map settled_answer (until_failure xs) /\
      (Forall (fun y => exists a, y = Ok a) ys -> ys = map settled_answer xs).
Proof. exact lazily_poured. Qed.
Print Assumptions C17_lazy_events_partial.

(** C44 with deferred scalars, from a source: the events are those the grammar says, once
    their scalars are evaluated without asking for more text.  Partial as
    [C44_lazy_partial], and without carriage returns. *)
Theorem C44_lazy_source_partial :
  forall (t : str) (e : list deed) (src : Reader.source) (debug : bool),
    all_ascii t -> no_double t -> ~ In 13%N t -> stream t e -> steady src -> bytes_of src = t ->
    exists es evs,
      run_events peek_source debug (List.length es + 1) parser0 (snd (events_new (Own (owned_new src)) true))
        = map (fun x => Ok (Some x)) es ++ [Ok None] /\
      map ev_data (map settled_event es) = EvStreamStart :: evs ++ [EvStreamEnd] /\
      Forall2 shows_lazily e evs.
Proof. exact lazy_source_events. Qed.
Print Assumptions C44_lazy_source_partial.

(** A mapping in pieces, one with a deferred block scalar: the difference is there. *)
Definition pieces : Reader.source := map Data [bytes "a"; bytes ": "; bytes "['b"; bytes "']"; [10%N]; bytes "c: |"; 10%N :: bytes " d"; [10%N]; bytes "e: f"].
Example C17_lazy_events_example :
  steady pieces /\ short (bytes_of pieces) /\ all_ascii (bytes_of pieces) /\ ~ In 13%N (bytes_of pieces) /\
  let xs := run_events peek_source false 16 parser0 (snd (events_new (Own (owned_new pieces)) true)) in
  map (fun x => match x with Ok (Some e) => true | _ => false end) xs = repeat true 14 ++ [false; false] /\
  map settled_answer xs <> xs.
Proof.
  split; [repeat (constructor; [eexists; eexists; reflexivity|]); constructor|].
  split; [vm_compute; discriminate|]. split; [repeat constructor|].
  split; [vm_compute; intuition discriminate|]. vm_compute. split; [reflexivity|discriminate].
Qed.
(** The sample of C44, in one piece. *)
Example C44_lazy_source_example :
  all_ascii sample /\ no_double sample /\ ~ In 13%N sample /\ stream sample sample_deeds /\ steady [Data sample] /\ bytes_of [Data sample] = sample.
Proof.
  split; [repeat constructor|]. split; [apply DeferYaml.no_backslash; reflexivity|].
  split; [vm_compute; intuition discriminate|]. split; [exact sample_is|].
  split; [constructor; [eexists; eexists; reflexivity|constructor]|]. cbn [bytes_of flat_map]. apply app_nil_r.
Qed.
