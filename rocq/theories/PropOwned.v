(** Property C17: readers over a byte source. *)
From Verif Require Import SpecUtf8 SpecContent OwnedWitness Reader SpecOwned.
Open Scope nat_scope.

(** C17: whatever the lengths of the pieces in which a source hands out a text, and
    however the consumer asks for tokens, the reader over the source delivers the tokens
    and failures of the reader over the text - or it stops with a UTF-8 error, which
    needs a text of more than 8192 bytes that is not ASCII.  Partial: eager scanning
    only; [C17_lazy_partial] is about deferred scalars. *)
Theorem C17_chunks_partial :
  forall (t : str) (src : source) (o : flags), well_formed t -> steady src -> bytes_of src = t ->
    lazy_mode o = false ->
    forall s l x l' x', consumes (pour src o) s = (l, x) -> consumes (open t o) s = (l', x') ->
      l = l' /\ alike x x' \/
      x = Err RUtf8 /\ ~ all_ascii t /\ ~ short t /\ exists r, l' = l ++ r.
Proof. exact chunks_unseen. Qed.
Print Assumptions C17_chunks_partial.

(** C17 with deferred scalars: the reader over the source delivers the entries of the
    reader over the text, with one difference, the option to ask for more text that it
    leaves in deferred block scalars ([C17_lazy_refuted] is its effect).  Partial: texts
    without carriage returns. *)
Theorem C17_lazy_partial :
  forall (t : str) (src : source) (o : flags), well_formed t -> steady src -> bytes_of src = t ->
    lazy_mode o = true -> ~ In 13%N t ->
    forall s l x l' x', consumes (pour src o) s = (l, x) -> consumes (open t o) s = (l', x') ->
      l' = map settled l /\ alike_settled x x' \/
      x = Err RUtf8 /\ ~ all_ascii t /\ ~ short t /\ exists r, l' = map settled l ++ r.
Proof. exact deferred_unseen. Qed.
Print Assumptions C17_lazy_partial.

(** C17 fails for characters of more than one byte: if one of them lies across the end of
    a block, the reader over the source reports invalid UTF-8. *)
Theorem C17_straddle_refuted :
  exists src t, steady src /\ bytes_of src = t /\ well_formed t /\
    (exists r, consumes (open t eager) [Fill; Fill] = ([], Ok r)) /\
    consumes (pour src eager) [Fill; Fill] = ([], Err RUtf8).
Proof. exact straddle. Qed.
Print Assumptions C17_straddle_refuted.

(** C17 fails for lazy scanning: block scalars of the reader over the source cannot be
    evaluated ([Extend] reaches the consumer as an unexpected end of input). *)
Theorem C17_lazy_refuted :
  exists src t, steady src /\ bytes_of src = t /\ well_formed t /\
    (exists r r', snd (consumes (open t deferring) filled) = Ok r /\ snd (consumes (pour src deferring) filled) = Ok r') /\
    (forall x, In x (evaluated (fst (consumes (open t deferring) filled))) -> exists k, x = Ok k) /\
    In (Err Extend) (evaluated (fst (consumes (pour src deferring) filled))).
Proof. exact deferred_differs. Qed.
Print Assumptions C17_lazy_refuted.

(** ** The hypotheses can be met *)
(** A mapping in pieces of one and two bytes. *)
Definition pieces : source := map Data [bytes "a"; bytes ": "; bytes "["; bytes "'b"; bytes "'"; bytes "]"; [10%N]].
Example C17_pieces :
  steady pieces /\ short (bytes_of pieces) /\
  map e_marker (fst (consumes (pour pieces eager) filled)) =
    [MStreamStart; MBlockMappingStart; MKey; MScalar; MValue; MFlowSequenceStart; MScalar; MFlowSequenceEnd; MBlockEnd; MStreamEnd] /\
  fst (consumes (pour pieces eager) filled) = fst (consumes (open (bytes_of pieces) eager) filled).
Proof.
  split; [repeat constructor; eexists; eexists; reflexivity|]. split; [discriminate|].
  split; vm_compute; reflexivity.
Qed.
(** The same mapping and a block scalar, in pieces, with deferred scalars: only the block
    scalar differs. *)
Definition pieces_lazy : source := map Data [bytes "a"; bytes ": "; bytes "'b"; bytes "'"; [10%N]; bytes "c: |"; [10%N; 32%N]; bytes "d"; [10%N]; bytes "e: f"; [10%N]].
Example C17_pieces_lazy :
  steady pieces_lazy /\ ~ In 13%N (bytes_of pieces_lazy) /\
  map e_marker (fst (consumes (pour pieces_lazy deferring) filled)) =
    [MStreamStart; MBlockMappingStart; MKey; MScalar; MValue; MScalar; MKey; MScalar; MValue; MScalar; MKey; MScalar; MValue; MScalar; MBlockEnd; MStreamEnd] /\
  map settled (fst (consumes (pour pieces_lazy deferring) filled)) = fst (consumes (open (bytes_of pieces_lazy) deferring) filled) /\
  fst (consumes (pour pieces_lazy deferring) filled) <> fst (consumes (open (bytes_of pieces_lazy) deferring) filled).
Proof.
  split; [repeat constructor; eexists; eexists; reflexivity|]. split; [cbn; intuition discriminate|].
  split; [vm_compute; reflexivity|]. split; [vm_compute; reflexivity|]. vm_compute. discriminate.
Qed.
