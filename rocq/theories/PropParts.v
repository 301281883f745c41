(** C34: documents and what comes before them. *)
From Verif Require Import SpecUtf8 SpecParts Utf8Facts PartsSim.
Open Scope nat_scope.

(** C34, for streams that open no block collection before a document marker (see
    [C34_documents_independent_refuted]) and close their flow collections: the text behind the
    line of the marker has the tokens it has alone, each as much further on as the text
    is, and the same outcome, for any requests.  The reader has read up to the marker
    and handed out all the tokens up to it.  [w1] is the rest of the line of the marker
    and may hold more lines of white space and comments, [w2] takes their place in the
    text alone. *)
Theorem C34_alone_partial :
  forall (a t w1 w2 : str) (x : bool) (n : nat) (o : flags) s1 l m r1,
    well_formed (a ++ w1 ++ t) -> well_formed (w2 ++ t) -> well_formed t ->
    filler t w1 true n -> filler t w2 x n ->
    consumes (open (a ++ w1 ++ t) o) s1 = (l ++ [m], Ok r1) -> marks_document m -> nothing_ready r1 ->
    sc_offset (r_sc r1) = List.length a -> flows_closed l -> ~ opens_block l ->
    exists r2, consumes (open (w2 ++ t) o) [Fill; Pull] = ([mkEntry (Tok TStreamStart) 0], Ok r2) /\
      forall s, Forall2 (moved (e_read m + List.length w1) (List.length w2)) (fst (consumes r1 s)) (fst (consumes r2 s)) /\
        same_end (snd (consumes r1 s)) (snd (consumes r2 s)).
Proof. exact document_alone. Qed.
Print Assumptions C34_alone_partial.

(** C34: of everything before a document marker, only whether a block collection was
    opened matters to the tokens behind it.  Missing: markers inside of flow
    collections. *)
Theorem C34_markers_partial :
  forall (a1 a2 t : str) (o : flags) s1 s2 l1 l2 m1 m2 r1 r2,
    well_formed (a1 ++ t) -> well_formed (a2 ++ t) -> well_formed t ->
    consumes (open (a1 ++ t) o) s1 = (l1 ++ [m1], Ok r1) -> consumes (open (a2 ++ t) o) s2 = (l2 ++ [m2], Ok r2) ->
    marks_document m1 -> marks_document m2 -> nothing_ready r1 -> nothing_ready r2 ->
    sc_offset (r_sc r1) = List.length a1 -> sc_offset (r_sc r2) = List.length a2 ->
    flows_closed l1 -> flows_closed l2 -> (opens_block l1 <-> opens_block l2) ->
    forall s, Forall2 (moved (e_read m1) (e_read m2)) (fst (consumes r1 s)) (fst (consumes r2 s)) /\
      same_end (snd (consumes r1 s)) (snd (consumes r2 s)).
Proof. exact after_markers. Qed.
Print Assumptions C34_markers_partial.

(** A document with a flow sequence, a marker with a comment and a mapping, whose seven
    tokens are those it has alone. *)
Example C34_alone_example :
  let a := bytes "[a]" ++ [10%N] ++ bytes "---" in
  let w := bytes " # c" ++ [10%N] in
  let t := bytes "b: c" in
  let o := mkFlags false false in
  well_formed (a ++ w ++ t) /\ well_formed ([] ++ t) /\ well_formed t /\ filler t w true 0 /\ filler t [] false 0 /\
  exists l r, consumes (open (a ++ w ++ t) o) [Fill; Fill; Fill; Pull; Pull; Pull; Pull; Pull] = (l ++ [mkEntry (Tok TDocumentStart) 7], Ok r) /\
    nothing_ready r /\ sc_offset (r_sc r) = List.length a /\ flows_closed l /\ ~ opens_block l /\
    List.length (fst (consumes r [Fill; Pull; Pull; Pull; Fill; Pull; Fill; Pull; Pull; Pull])) = 7.
Proof.
  cbv zeta. split; [apply valid_iff; reflexivity|]. split; [apply valid_iff; reflexivity|]. split; [apply valid_iff; reflexivity|].
  split; [|split; [apply (fill_here _ []); constructor|]].
  - apply (fill_line _ (bytes " ") (bytes "# c") [10%N] [] false 0); [repeat constructor|right|discriminate|reflexivity|apply (fill_here _ []); constructor].
    exists (bytes " c"). split; [reflexivity|]. repeat constructor; discriminate.
  - eexists [_; _; _; _], _. split; [vm_compute; reflexivity|]. split; [vm_compute; reflexivity|]. split; [vm_compute; reflexivity|].
    split; [vm_compute; reflexivity|]. split; [|vm_compute; reflexivity].
    intros (e & I & B). cbn [In] in I. repeat destruct I as [I|I]; try (subst e; discriminate B). exact I.
Qed.

(** A mapping and a sequence before the same text. *)
Example C34_markers_example :
  let a1 := bytes "a: b" ++ [10%N] ++ bytes "---" in
  let a2 := bytes "- c" ++ [10%N] ++ bytes "- d: e" ++ [10%N] ++ bytes "..." in
  let t := [10%N] ++ bytes " - x" in
  let o := mkFlags false false in
  well_formed (a1 ++ t) /\ well_formed (a2 ++ t) /\ well_formed t /\
  exists l1 r1 l2 r2,
    consumes (open (a1 ++ t) o) ([Fill; Fill; Fill; Fill] ++ repeat Pull 8) = (l1 ++ [mkEntry (Tok TDocumentStart) 8], Ok r1) /\
    consumes (open (a2 ++ t) o) (repeat Fill 6 ++ repeat Pull 13) = (l2 ++ [mkEntry (Tok TDocumentEnd) 14], Ok r2) /\
    nothing_ready r1 /\ nothing_ready r2 /\ sc_offset (r_sc r1) = List.length a1 /\ sc_offset (r_sc r2) = List.length a2 /\
    flows_closed l1 /\ flows_closed l2 /\ opens_block l1 /\ opens_block l2 /\
    List.length (fst (consumes r1 [Fill; Pull; Pull; Fill; Pull; Fill; Pull; Pull])) = 5.
Proof.
  cbv zeta. split; [apply valid_iff; reflexivity|]. split; [apply valid_iff; reflexivity|]. split; [apply valid_iff; reflexivity|].
  eexists [_; _; _; _; _; _; _], _, [_; _; _; _; _; _; _; _; _; _; _; _], _.
  split; [vm_compute; reflexivity|]. split; [vm_compute; reflexivity|]. split; [vm_compute; reflexivity|]. split; [vm_compute; reflexivity|].
  split; [vm_compute; reflexivity|]. split; [vm_compute; reflexivity|]. split; [vm_compute; reflexivity|]. split; [vm_compute; reflexivity|].
  split; [eexists; split; [right; left; reflexivity|reflexivity]|]. split; [eexists; split; [right; left; reflexivity|reflexivity]|]. vm_compute. reflexivity.
Qed.
