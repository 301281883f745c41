(** Streams of documents from byte sources, with deferred scalars. *)
From Verif Require Import SpecUtf8 SpecContent SpecLazySource SpecYaml SpecDeferYaml DeferYaml LazySource.
From Verif Require StreamFacts.
From Coq Require Import Lia.
Open Scope nat_scope.

Lemma lazy_source_events t e src debug : all_ascii t -> no_double t -> ~ In 13%N t -> stream t e -> steady src -> bytes_of src = t ->
  exists es evs,
    run_events peek_source debug (List.length es + 1) parser0 (snd (events_new (Own (owned_new src)) true))
      = map (fun x => Ok (Some x)) es ++ [Ok None] /\
    map ev_data (map settled_event es) = EvStreamStart :: evs ++ [EvStreamEnd] /\ Forall2 shows_lazily e evs.
Proof.
  intros A D NR S ST B. destruct (lazy_stream_events t e debug A D S) as (es & evs & R & M & F).
  destruct (lazily_poured t src debug (StreamFacts.ascii_well_formed t A) ST B NR (or_introl A) (List.length es + 1)) as [_ Q].
  rewrite R in Q. destruct (settled_inv _ es (eq_sym (Q ltac:(apply Forall_app; split; [apply Forall_forall; intros x I; apply in_map_iff in I as (y & <- & _); eauto|repeat constructor; eauto])))) as (es' & E & K).
  exists es', evs. assert (L : List.length es' = List.length es) by (rewrite <- K, map_length; reflexivity).
  rewrite L, K. auto.
Qed.
