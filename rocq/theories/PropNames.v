(** Properties C31 and C32: versions of directives, names of anchors and aliases. *)
From Verif Require Import SpecUtf8 SpecStream SpecQuoted SpecBlank SpecContent SpecNames NameFacts.
Open Scope nat_scope.

(** C31: whatever else the text contains, a version directive of its stream stands in
    the text as [%YAML], white space and two numbers of at most 255 with a dot between
    them, carries the values of these numbers, and ends where their digits end. *)
Theorem C31_versions :
  forall (t : str) (o : flags), well_formed t ->
    forall s l x e a b, consumes (open t o) s = (l, x) -> In e l -> e_wrap e = Tok (TVersionDirective a b) ->
      exists n base k lb d1 d2 r, skipn n t = yaml ++ base /\ gap false k base (d1 ++ 46%N :: d2 ++ r) lb /\
        version_number d1 a /\ version_number d2 b /\ ends digit r /\
        (no_verbatim_tag t -> skipn (e_read e) t = r).
Proof. exact versions_of_streams. Qed.
Print Assumptions C31_versions.

(** C31: any two such numbers are accepted, whatever follows. *)
Theorem C31_accepted :
  forall (w d1 d2 r : str) (a b : N) (o : flags), spaces w ->
    version_number d1 a -> version_number d2 b -> ends digit r -> well_formed r ->
    exists x, consumes (open (yaml ++ w ++ d1 ++ 46%N :: d2 ++ r) o) [Fill; Fill; Pull; Pull] =
      ([mkEntry (Tok TStreamStart) 0;
        mkEntry (Tok (TVersionDirective a b)) (List.length (yaml ++ w ++ d1 ++ 46%N :: d2))], Ok x).
Proof. exact versions_accepted. Qed.
Print Assumptions C31_accepted.

(** C31: without digits, or with more than 255, every way of reading that asks twice
    for tokens ends with [InvalidVersion]. *)
Theorem C31_rejected :
  forall (w d1 d2 r : str) (o : flags), spaces w -> Forall digit d1 -> Forall digit d2 -> ends digit r ->
    well_formed r -> ~ (exists a b, version_number d1 a /\ version_number d2 b) ->
    forall s l x, consumes (open (yaml ++ w ++ d1 ++ 46%N :: d2 ++ r) o) s = (l, x) -> 2 <= fills s ->
      x = Err (RScan InvalidVersion).
Proof. exact versions_rejected. Qed.
Print Assumptions C31_rejected.

(** C31: the same where another character stands in the place of the dot. *)
Theorem C31_without_dot :
  forall (w d1 : str) (c : N) (r : str) (o : flags), spaces w -> Forall digit d1 -> well_formed (c :: r) ->
    not_white_space c -> c <> 46%N -> ~ digit c ->
    forall s l x, consumes (open (yaml ++ w ++ d1 ++ c :: r) o) s = (l, x) -> 2 <= fills s ->
      x = Err (RScan InvalidVersion).
Proof. exact versions_without_dot. Qed.
Print Assumptions C31_without_dot.

(** C32: whatever else the text contains, an anchor or alias of its stream stands in the
    text as its indicator, its name and one of the characters that may follow a name,
    is spelled with letters and digits only, is not empty, is part of the text, and
    ends before that character. *)
Theorem C32_names :
  forall (t : str) (o : flags), well_formed t ->
    forall s l x e alias c, consumes (open t o) s = (l, x) -> In e l -> e_wrap e = Tok (naming alias c) ->
      exists n name b r, skipn n t = indicator alias :: name ++ b :: r /\ c = Borrowed name /\ name <> [] /\
        Forall alphanumeric name /\ In b after_name /\ (no_verbatim_tag t -> skipn (e_read e) t = b :: r).
Proof. exact names_of_streams. Qed.
Print Assumptions C32_names.

(** C32: any name, alone in a text but for a space or line feed and more white space
    and comments, is read as that name. *)
Theorem C32_accepted :
  forall (alias : bool) (name w : str) (o : flags), Forall alphanumeric name -> name <> [] ->
    all_ascii w -> skips false w [] -> (exists c w', w = c :: w' /\ (c = 32 \/ c = 10)%N) ->
    yields (indicator alias :: name ++ w) o
      [mkEntry (Tok TStreamStart) 0; mkEntry (Tok (naming alias (Borrowed name))) (S (List.length name));
       mkEntry (Tok TStreamEnd) (S (List.length name + List.length w))].
Proof. exact anchor_alone. Qed.
Print Assumptions C32_accepted.

(** C32: an empty name, a name at the end of the text and a name followed by a character
    that may not follow one are errors. *)
Theorem C32_rejected :
  forall (alias : bool) (name r : str) (o : flags) (e : scan_error),
    Forall alphanumeric name -> well_formed r -> ends alphanumeric r ->
    (name = [] /\ e = InvalidAnchorName) \/ (name <> [] /\ r = [] /\ e = UnexpectedEOF) \/
    (exists b r', name <> [] /\ r = b :: r' /\ ~ In b after_name /\ e = InvalidAnchorName) ->
    forall s l x, consumes (open (indicator alias :: name ++ r) o) s = (l, x) -> 2 <= fills s ->
      x = Err (RScan e).
Proof. exact names_rejected. Qed.
Print Assumptions C32_rejected.

(** ** Instances *)
Definition opts : flags := mkFlags false false.

Example C31_sample : exists x, consumes (open (bytes "%YAML 1.255 ---") opts) [Fill; Fill; Pull; Pull] =
  ([mkEntry (Tok TStreamStart) 0; mkEntry (Tok (TVersionDirective 1 255)) 11], Ok x).
Proof.
  apply (C31_accepted [32%N] (bytes "1") (bytes "255") (bytes " ---") 1 255 opts).
  - repeat constructor.
  - repeat split; try discriminate. repeat constructor; discriminate.
  - repeat split; try discriminate. repeat (constructor; [split; discriminate|]). constructor.
  - intros c r E. injection E as <- _. unfold digit. intros [H _]. apply H. reflexivity.
  - apply Utf8Facts.valid_iff. vm_compute. reflexivity.
Qed.

Example C31_sample_rejected : forall s l x,
  consumes (open (bytes "%YAML 1.256 ---") opts) s = (l, x) -> 2 <= fills s -> x = Err (RScan InvalidVersion).
Proof.
  apply (C31_rejected [32%N] (bytes "1") (bytes "256") (bytes " ---") opts).
  - repeat constructor.
  - repeat (constructor; [split; discriminate|]). constructor.
  - repeat (constructor; [split; discriminate|]). constructor.
  - intros c r E. injection E as <- _. unfold digit. intros [H _]. apply H. reflexivity.
  - apply Utf8Facts.valid_iff. vm_compute. reflexivity.
  - intros (a & b & _ & _ & _ & -> & H). apply H. reflexivity.
Qed.

(** The directive is met in the middle of a stream, too. *)
Example C31_sample_stream : exists l x, consumes (open (bytes "a" ++ [10%N] ++ bytes "%YAML 3.4" ++ [10%N]) opts)
    [Fill; Fill; Fill; Pull; Pull; Pull] = (l, Ok x) /\ In (mkEntry (Tok (TVersionDirective 3 4)) 11) l.
Proof. eexists _, _. split; [vm_compute; reflexivity|]. right. right. left. reflexivity. Qed.

Example C32_sample : yields (bytes "&a1 # no") opts
  [mkEntry (Tok TStreamStart) 0; mkEntry (Tok (TAnchor (Borrowed (bytes "a1")))) 3; mkEntry (Tok TStreamEnd) 8].
Proof.
  apply (C32_accepted false (bytes "a1") (bytes " # no") opts).
  - constructor; [right; right; split; discriminate|]. constructor; [left; split; discriminate|]. constructor.
  - discriminate.
  - repeat constructor.
  - apply sk_blank; [reflexivity|]. cbn. apply sk_open; [reflexivity|]. cbn.
    repeat (apply sk_blank; [reflexivity|]; cbn). apply sk_comment; [discriminate|reflexivity|]. cbn.
    apply sk_comment; [discriminate|reflexivity|]. apply sk_eof.
  - exists 32%N, (bytes "# no"). split; [reflexivity|]. left. reflexivity.
Qed.

Example C32_sample_rejected : forall s l x,
  consumes (open (bytes "*a-b ") opts) s = (l, x) -> 2 <= fills s -> x = Err (RScan InvalidAnchorName).
Proof.
  apply (C32_rejected true (bytes "a") (bytes "-b ") opts).
  - constructor; [right; right; split; discriminate|constructor].
  - apply Utf8Facts.valid_iff. vm_compute. reflexivity.
  - intros c r E. injection E as <- _. intros [[H _]|[[H _]|[H _]]]; apply H; reflexivity.
  - right. right. exists 45%N, (bytes "b "). split; [discriminate|]. split; [reflexivity|]. split; [|reflexivity].
    cbn. intuition discriminate.
Qed.

Example C32_sample_stream : exists l x, consumes (open (bytes "- &x 1") opts)
    [Fill; Fill; Fill; Pull; Pull; Pull; Pull] = (l, Ok x) /\ In (mkEntry (Tok (naming false (Borrowed (bytes "x")))) 4) l.
Proof. eexists _, _. split; [vm_compute; reflexivity|]. right. right. right. left. reflexivity. Qed.
