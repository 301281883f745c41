(** Property C46: indentation decides about block collections. *)
From Verif Require Import SpecUtf8 SpecStream SpecPlaced LayoutStream.
From Coq Require Import Lia.
Open Scope nat_scope.

(** C46: whatever a text contains, the tokens of its stream are, sorted by position, those
    found in it from the beginning to the end.  A block collection opens where a dash, a
    question mark, a colon or the key before a colon stands further to the right than
    the innermost one (or a dash in the column of a mapping), an entry of it stands in its
    column, and it is closed where something stands further to the left, or the document
    is over.  Nothing but white space and comments lies between two tokens.  Scalars are
    read with the indentation of the innermost block collection. *)
Theorem C46_layout :
  forall (t : str) (o : flags), well_formed t -> no_verbatim_tag t -> lazy_mode o = false ->
    forall s l x, consumes (open t o) s = (l, x) ->
      exists h rest s', sorted_by_position h (l ++ rest) /\ laid_out (written t) t nothing_open h s'.
Proof. exact layout_streams. Qed.
Print Assumptions C46_layout.

(** ** The hypotheses can be met *)
Definition nl : str := [10%N].
Definition tokens (t : str) : list (maybe_token * nat) :=
  map (fun e => (e_wrap e, e_read e)) (fst (consumes (open t (mkFlags false false)) (repeat Fill 40 ++ repeat Pull 40))).
(** A sequence in the column of its mapping, and one further to the right. *)
Definition layout_sample : str :=
  bytes "a:" ++ nl ++ bytes "- b" ++ nl ++ bytes "- c" ++ nl ++ bytes "d: " ++ nl ++ bytes "  - e" ++ nl.
Example C46_example :
  forallb (fun b => (b <? 128)%N) layout_sample = true /\ ~ In 33%N layout_sample /\
  tokens layout_sample =
    [(Tok TStreamStart, 0); (Tok TBlockMappingStart, 0); (Tok TKey, 0); (Tok (TScalar (Borrowed (bytes "a")) Plain), 1);
     (Tok TValue, 2); (Tok TBlockSequenceStart, 3); (Tok TBlockEntry, 4); (Tok (TScalar (Owned (bytes "b")) Plain), 6);
     (Tok TBlockEntry, 8); (Tok (TScalar (Owned (bytes "c")) Plain), 10); (Tok TBlockEnd, 11); (Tok TKey, 11);
     (Tok (TScalar (Borrowed (bytes "d")) Plain), 12); (Tok TValue, 13); (Tok TBlockSequenceStart, 17);
     (Tok TBlockEntry, 18); (Tok (TScalar (Owned (bytes "e")) Plain), 20); (Tok TBlockEnd, 21); (Tok TBlockEnd, 21);
     (Tok TStreamEnd, 21)].
Proof. split; [reflexivity|]. split; [cbn; intuition discriminate|vm_compute; reflexivity]. Qed.

(** ** Where columns do not decide *)
(** Refuted: what stands further to the right than a block sequence belongs to it.  In a
    sequence in the column of its mapping, the scalar below a dash stands in column 2,
    behind the end of the sequence. *)
Theorem C46_below_dash_refuted :
  exists t : str, in_column t 7 2 /\
    tokens t =
    [(Tok TStreamStart, 0); (Tok TBlockMappingStart, 0); (Tok TKey, 0); (Tok (TScalar (Borrowed (bytes "a")) Plain), 1);
     (Tok TValue, 2); (Tok TBlockSequenceStart, 3); (Tok TBlockEntry, 4); (Tok TBlockEnd, 7);
     (Tok (TScalar (Borrowed (bytes "x")) SingleQuote), 10); (Tok TBlockEnd, 10); (Tok TStreamEnd, 10)].
Proof.
  set (t := bytes "a:" ++ nl ++ bytes "-" ++ nl ++ bytes "  'x'"). exists t. split; [|vm_compute; reflexivity].
  exists 2. apply pos_byte with (c := 1); [|cbn; lia|reflexivity]. apply pos_byte with (c := 0); [|cbn; lia|reflexivity].
  refine (pos_break t 4 1 1 _ _); [|discriminate]. apply pos_byte with (c := 0); [|cbn; lia|reflexivity].
  refine (pos_break t 2 0 2 _ _); [|discriminate]. apply pos_byte with (c := 1); [|cbn; lia|reflexivity].
  apply pos_byte with (c := 0); [|cbn; lia|reflexivity]. constructor.
Qed.
Print Assumptions C46_below_dash_refuted.

(** Refuted: block collections are not closed within a flow collection. *)
Theorem C46_end_in_flow_refuted :
  exists t : str, tokens t =
    [(Tok TStreamStart, 0); (Tok TBlockMappingStart, 0); (Tok TKey, 0); (Tok (TScalar (Borrowed (bytes "a")) Plain), 1);
     (Tok TValue, 2); (Tok TBlockSequenceStart, 3); (Tok TBlockEntry, 4); (Tok TFlowSequenceStart, 6);
     (Tok (TScalar (Borrowed (bytes "b")) Plain), 7); (Tok TFlowEntry, 8); (Tok TBlockEnd, 11);
     (Tok (TScalar (Borrowed (bytes "c")) Plain), 12); (Tok TFlowSequenceEnd, 13); (Tok TBlockEnd, 13); (Tok TStreamEnd, 13)].
Proof. exists (bytes "a:" ++ nl ++ bytes "- [b," ++ nl ++ bytes "  c]"). vm_compute. reflexivity. Qed.
Print Assumptions C46_end_in_flow_refuted.

(** Refuted: a key in the column of a mapping belongs to the mapping.  If it begins with a
    dash, and the value before it is a sequence in the same column, this sequence is
    closed only behind the key. *)
Theorem C46_dash_key_refuted :
  exists t : str, tokens t =
    [(Tok TStreamStart, 0); (Tok TBlockMappingStart, 0); (Tok TKey, 0); (Tok (TScalar (Borrowed (bytes "a")) Plain), 1);
     (Tok TValue, 2); (Tok TBlockSequenceStart, 3); (Tok TBlockEntry, 4); (Tok (TScalar (Owned (bytes "b")) Plain), 6);
     (Tok TKey, 7); (Tok (TScalar (Borrowed (bytes "-x")) Plain), 9); (Tok TBlockEnd, 9); (Tok TValue, 10);
     (Tok (TScalar (Borrowed (bytes "c")) Plain), 12); (Tok TBlockEnd, 12); (Tok TStreamEnd, 12)].
Proof. exists (bytes "a:" ++ nl ++ bytes "- b" ++ nl ++ bytes "-x: c"). vm_compute. reflexivity. Qed.
Print Assumptions C46_dash_key_refuted.

(** Refuted: the key of a pair is a node of the collection that has the pair.  A scalar
    before a bracket becomes the key of a pair within it. *)
Theorem C46_key_outside_refuted :
  exists t : str, tokens t =
    [(Tok TStreamStart, 0); (Tok TKey, 0); (Tok (TScalar (Borrowed (bytes "a")) SingleQuote), 3);
     (Tok TFlowSequenceStart, 5); (Tok TValue, 6); (Tok (TScalar (Borrowed (bytes "b")) Plain), 8);
     (Tok TFlowSequenceEnd, 9); (Tok TStreamEnd, 9)].
Proof. exists (bytes "'a' [: b]"). vm_compute. reflexivity. Qed.
Print Assumptions C46_key_outside_refuted.
