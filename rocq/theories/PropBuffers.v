(** Properties C17, C18 and C43: what readers over a byte source keep. *)
From Verif Require Import SpecUtf8 SpecContent Utf8Facts Buffers OwnedWitness Reader SpecOwned.
Open Scope nat_scope.

(** C18: as long as the source does not fail and its bytes are well formed, what is
    still unread is at every moment the end of the input, and it only shrinks. *)
Theorem C18_unread :
  forall (src : source) (o : flags) s1 l1 r1 s2 l2 r2,
    serves (pour src o) s1 = (l1, r1) -> serves r1 s2 = (l2, r2) -> lossless (l1 ++ l2) ->
    exists d1 d2, bytes_of src = d1 ++ unread r1 /\ unread r1 = d2 ++ unread r2.
Proof. exact (fun src o s1 l1 r1 s2 l2 r2 => unread_shrinks src o s1 s2 l1 r1 l2 r2). Qed.
Print Assumptions C18_unread.

(** C18, no byte is lost or counted twice: the bytes counted as read and the bytes unread
    make up the input.  Partial: texts without verbatim tags; with deferred scalars, texts
    without carriage returns, and not at the end of the input. *)
Theorem C18_position_partial :
  forall (t : str) (src : source) (o : flags), well_formed t -> steady src -> bytes_of src = t ->
    no_verbatim_tag t ->
    forall s l r, consumes (pour src o) s = (l, Ok r) ->
      lazy_mode o = false \/ ~ In 13%N t /\ unread r <> [] ->
      let st := sc_st (r_sc r) in
      unread r = skipn (sread st) t /\ sread st <= List.length t /\
      position t (sread st) (slines st) (scol st).
Proof. exact (fun t src o W S B NV => poured_position t src o S B (proj2 (valid_iff t) W) NV). Qed.
Print Assumptions C18_position_partial.

(** C18: buffers are never dropped, and every text a delivered token refers to, now or
    after a deferred scalar has been evaluated, lies in one of them. *)
Theorem C18_buffers :
  forall (src : source) (o : flags) s1 l1 r1 s2 l2 r2 e,
    serves (pour src o) s1 = (l1, r1) -> serves r1 s2 = (l2, r2) -> In (Given (Some e)) l1 ->
    (exists new, buffers r2 = buffers r1 ++ new) /\
    exists b, In b (buffers r1) /\ (forall y, In y (entry_texts e) -> part_of y b) /\
      forall t, into_token (e_wrap e) = Ok t -> forall y, In y (token_texts t) -> part_of y b.
Proof. exact (fun src o s1 l1 r1 s2 l2 r2 e => texts_kept src o s1 s2 l1 r1 l2 r2 e). Qed.
Print Assumptions C18_buffers.

(** C18 fails when the source fails: bytes already handed out in the same refill are gone,
    though none of them was read. *)
Theorem C18_failure_refuted :
  exists s l r, serves (pour failing eager) s = (l, r) /\
    l = [Scanned (Ok tt); Scanned (Err RIo)] /\ sread (sc_st (r_sc r)) = 0 /\
    unread r = bytes ": b" /\ bytes_of failing = bytes "a: b".
Proof. exact failure_loses. Qed.
Print Assumptions C18_failure_refuted.

(** C17: for any options, any source, failing or not, and any consumer, the answers
    depend only on the bytes, pauses and failures of the source, not on how the bytes
    are divided into reads. *)
Theorem C17_divisions :
  forall (src src' : source) (o : flags) s, says src = says src' ->
    fst (serves (pour src o) s) = fst (serves (pour src' o) s).
Proof. exact splits_unseen. Qed.
Print Assumptions C17_divisions.

(** C43: every request to a reader is answered, over text and over any source. *)
Theorem C43_requests_end :
  (forall (t : str) o s l r, well_formed t -> serves (open t o) s = (l, r) -> ~ In (Scanned Fuel) l) /\
  (forall (src : source) o s l r, serves (pour src o) s = (l, r) -> ~ In (Scanned Fuel) l).
Proof. exact all_answered. Qed.
Print Assumptions C43_requests_end.

(** ** The hypotheses can be met *)
(** An anchor and a quoted text, in pieces. *)
Definition anchored : source := [Data (bytes "&x "); Data (bytes "'b' "); Data [10%N]].
Definition texts (l : list answer) : list (list str) :=
  flat_map (fun a => match a with Given (Some e) => [entry_texts e] | _ => [] end) l.
Example C18_anchored :
  let (l1, r1) := serves (pour anchored eager) [Fill; Fill; Pull; Pull] in
  let (l2, r2) := serves r1 [Fill; Fill; Pull; Pull] in
  texts l1 = [[]; [bytes "x"]] /\ texts l2 = [[bytes "b"]; []] /\
  buffers r1 = [[]; bytes "&x 'b' " ++ [10%N]; bytes " " ++ [10%N]] /\
  buffers r2 = buffers r1.
Proof. vm_compute. repeat split. Qed.

(** The same bytes, pauses and failures in other pieces. *)
Definition failing' : source := [Data (bytes "x: "); Data (bytes "y"); IoErr; Data []; Data (bytes "z")].
Definition failing'' : source := [Data (bytes "x"); Data (bytes ": y"); IoErr; Data []; Data (bytes "z")].
Example C17_failing : says failing' = says failing'' /\ In (Scanned (Err RIo)) (fst (serves (pour failing' eager) filled)).
Proof. vm_compute. split; [reflexivity|]. auto 20. Qed.
