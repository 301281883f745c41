(** Property C27: values of plain scalars. *)
From Verif Require Import SpecUtf8 SpecStream SpecPos SpecQuoted SpecBlank SpecContent SpecPlain PlainStream.
Open Scope nat_scope.

(** C27: whatever else the text contains, a plain scalar of its stream stands in the text
    as the source of its value: it begins where no comment, marker or end of a scalar
    stands, inner white space is kept within a line and folded across lines, and it ends
    before a colon and white space, before white space and a comment, a document marker
    or a line that is not indented enough, in a flow collection before a flow indicator,
    or where the text ends. *)
Theorem C27_streams :
  forall (t : str) (o : flags), well_formed t ->
    forall s l x e c, consumes (open t o) s = (l, x) -> In e l -> e_wrap e = Tok (TScalar c Plain) ->
      exists n flow indent k r, plain flow indent k (skipn n t) (cow_str c) r /\
        goes_on flow 0 k (skipn n t) /\ ~ white (skipn n t) /\
        (no_verbatim_tag t -> (exists line, reads t stats0 (skipn n t) (mkStats n line k)) /\ r = skipn (e_read e) t).
Proof. exact plain_streams. Qed.
Print Assumptions C27_streams.

(** C27: its value is not empty and ends with no white space. *)
Theorem C27_trimmed :
  forall (t : str) (o : flags), well_formed t ->
    forall s l x e c, consumes (open t o) s = (l, x) -> In e l -> e_wrap e = Tok (TScalar c Plain) ->
      trimmed (cow_str c).
Proof. exact plain_streams_trimmed. Qed.
Print Assumptions C27_trimmed.

(** C27: an ASCII text that begins like a plain scalar and has, after the end of that
    scalar, only white space and comments is read as this scalar. *)
Theorem C27_accepted_partial :
  forall (t : str) (o : flags), lazy_mode o = false -> all_ascii t -> plain_start false t -> ~ document_marker t ->
    forall v r, plain false 1 0 t v r -> skips false r [] ->
    exists c, cow_str c = v /\
      yields t o [mkEntry (Tok TStreamStart) 0; mkEntry (Tok (TScalar c Plain)) (List.length t - List.length r);
                  mkEntry (Tok TStreamEnd) (List.length t)].
Proof. exact plain_lookup. Qed.
Print Assumptions C27_accepted_partial.

(** C27: for example, words on any number of lines. *)
Theorem C27_lines :
  forall (w0 : str) (l : list (list piece * str)) (o : flags), lazy_mode o = false -> first_word w0 ->
    Forall (fun gw => indented (fst gw) /\ plain_word (snd gw)) l ->
    exists c, cow_str c = meaning w0 l /\
      yields (source w0 l) o (lone (TScalar c Plain) (List.length (source w0 l))).
Proof. exact plain_of_lines. Qed.
Print Assumptions C27_lines.

(** C27 fails beyond ASCII: a text that is a plain scalar makes the scanner panic. *)
Theorem C27_multibyte_refuted :
  exists v, well_formed v /\ plain_start false v /\ plain false 1 0 v v [] /\
    forall o, lazy_mode o = false -> snd (consumes (open v o) [Fill; Fill]) = Panic.
Proof. exact plain_accent. Qed.
Print Assumptions C27_multibyte_refuted.

(** ** The hypotheses can be met *)
(** A stream with plain scalars in block and flow collections. *)
Definition plain_sample : str := bytes "a b : [d  e, f#g" ++ [10%N] ++ bytes " h] # x".
Definition plains (l : list entry) : list str :=
  flat_map (fun e => match e_wrap e with Tok (TScalar c Plain) => [cow_str c] | _ => [] end) l.
Example C27_sample : forallb (fun b => (b <? 128)%N) plain_sample = true /\ ~ In 33%N plain_sample /\
  plains (fst (consumes (open plain_sample (mkFlags false false)) (repeat Fill 16 ++ repeat Pull 16))) =
    [bytes "a b"; bytes "d  e"; bytes "f#g h"].
Proof. split; [reflexivity|]. split; [cbn; intuition discriminate|vm_compute; reflexivity]. Qed.

(** Three lines, an empty one between them. *)
Example C27_lines_sample : exists c, cow_str c = bytes "a  b" ++ [10%N] ++ bytes "c,d" /\
  yields (bytes "a  b " ++ [10; 13; 10]%N ++ bytes " c,d") (mkFlags false false) (lone (TScalar c Plain) 12).
Proof.
  apply (C27_lines (bytes "a") [([Space; Space], bytes "b"); ([Space; LineFeed; CrLf; Space], bytes "c,d")] (mkFlags false false) eq_refl).
  - split; [|intros c r E; injection E as <- _; cbn; intuition discriminate].
    repeat split; repeat (constructor; [repeat split; (reflexivity || discriminate)|]); try constructor.
    exists 97%N, []. split; [reflexivity|discriminate].
  - constructor; [|constructor; [|constructor]]; (split; [|repeat split; repeat (constructor; [repeat split; (reflexivity || discriminate)|]); try constructor]).
    + exists [Space], Space. auto.
    + eexists _, _. split; [reflexivity|discriminate].
    + exists [Space; LineFeed; CrLf], Space. auto.
    + eexists _, _. split; [reflexivity|discriminate].
Qed.
