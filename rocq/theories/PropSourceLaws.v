(** C09, C19 and C48 for the events from byte sources that are read like their text. *)
From Verif Require Import Parser SpecTape SpecMarks SpecUtf8 SpecHarmless SpecContent HarmlessFacts SourceLaws SpecOwned.
Open Scope nat_scope.

(** C09: the iterator comes to its end or to an error after a bounded number of events.
    Partial: sources without failures of ASCII texts or of at most 8192 bytes, and no
    carriage returns if scalars are deferred. *)
Theorem C09_source_events_partial :
  forall (t : str) (src : Reader.source) (lazy debug : bool), well_formed t -> steady src -> bytes_of src = t ->
    all_ascii t \/ short t -> (lazy = true -> ~ In 13%N t) ->
    exists k x, k <= 18 * List.length t + 13 /\ x <> Fuel /\ (forall e, x <> Ok (Some e)) /\
      forall n, k < n -> let xs := run_events peek_source debug n parser0 (snd (events_new (Own (owned_new src)) lazy)) in
        nth_error xs k = Some x /\ forall i, i < k -> exists e, nth_error xs i = Some (Ok (Some e)).
Proof. exact (fun t src lazy debug W S B A NC => source_ends t src lazy debug W (conj S (conj B (conj A NC)))). Qed.
Print Assumptions C09_source_events_partial.

(** C19: no panic up to the first error.  Partial: as in C19_events_partial. *)
Theorem C19_source_events_partial :
  forall (t : str) (src : Reader.source) (lazy : bool) (n : nat), harmless lazy t -> steady src -> bytes_of src = t ->
    (lazy = true -> ~ In 13%N t) ->
    ~ In Panic (until_failure (run_events peek_source false n parser0 (snd (events_new (Own (owned_new src)) lazy)))).
Proof. exact harmless_source. Qed.
Print Assumptions C19_source_events_partial.

(** C48: the marks of events rise.  Partial: as in C09_source_events_partial. *)
Theorem C48_source_marks_partial :
  forall (t : str) (src : Reader.source) (lazy debug : bool) (n : nat), well_formed t -> steady src -> bytes_of src = t ->
    all_ascii t \/ short t -> (lazy = true -> ~ In 13%N t) ->
    rising 0 (marks (first_events (run_events peek_source debug n parser0 (snd (events_new (Own (owned_new src)) lazy)))))
      (List.length t).
Proof. exact (fun t src lazy debug n W S B A NC => source_marks t src lazy debug n W (conj S (conj B (conj A NC)))). Qed.
Print Assumptions C48_source_marks_partial.

(** Three blocks: thirteen events. *)
Example C09_source_example :
  let src := [Data (bytes "a: [b"); Data (bytes ", c]" ++ [10%N]); Data (bytes "d: e")] in
  let t := bytes_of src in
  well_formed t /\ steady src /\ all_ascii t /\ ~ In 13%N t /\ harmless false t /\
  List.length (first_events (run_events peek_source false 40 parser0 (snd (events_new (Own (owned_new src)) false)))) = 13.
Proof.
  cbv zeta. assert (H : harmless false (bytes_of [Data (bytes "a: [b"); Data (bytes ", c]" ++ [10%N]); Data (bytes "d: e")])) by (apply harmlessb_harmless; vm_compute; reflexivity).
  split; [exact (StreamFacts.ascii_well_formed _ (proj1 H))|]. split; [repeat (constructor; [eexists; eexists; reflexivity|]); constructor|].
  split; [exact (proj1 H)|]. split; [vm_compute; intuition discriminate|]. split; [exact H|]. vm_compute. reflexivity.
Qed.
