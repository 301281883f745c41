(** Property C40: white space and comments between tokens. *)
From Verif Require Import SpecUtf8 SpecGap Utf8Facts GapFacts.
Open Scope nat_scope.

(** C40, at the beginning of a text: lines of white space and comments in front of a
    text, and the kind of its first spaces and tabs, do not matter.  The tokens are the
    same, and every one but the first stands as much further as the text does.  Missing:
    comments with characters beyond ASCII (see [C40_wide_comment_refuted]) and comments
    that the text ends in. *)
Theorem C40_leading_partial :
  forall (t w1 w2 : str) (x1 x2 : bool) (n : nat) (o : flags),
    well_formed (w1 ++ t) -> well_formed (w2 ++ t) -> well_formed t ->
    filler t w1 x1 n -> filler t w2 x2 n ->
    forall s,
      Forall2 (same_token 0 (List.length w1) (List.length w2))
        (fst (consumes (open (w1 ++ t) o) s)) (fst (consumes (open (w2 ++ t) o) s)) /\
      same_end (snd (consumes (open (w1 ++ t) o) s)) (snd (consumes (open (w2 ++ t) o) s)).
Proof. exact gap_leading. Qed.
Print Assumptions C40_leading_partial.

(** C40, between two tokens: one line of white space and comments or many, and whatever
    the lines hold, all later tokens and the outcome are the same.  Both readers have
    read the text [a] and are in the same state.  The text behind begins in the same
    column. *)
Theorem C40_between_partial :
  forall (a t w1 w2 : str) (x : bool) (n : nat) (o : flags) s0 l r1 l' r2,
    well_formed (a ++ w1 ++ t) -> well_formed (a ++ w2 ++ t) -> well_formed t ->
    filler t w1 x n -> filler t w2 x n ->
    consumes (open (a ++ w1 ++ t) o) s0 = (l, Ok r1) ->
    consumes (open (a ++ w2 ++ t) o) s0 = (l', Ok r2) ->
    r_sc r2 = r_sc r1 -> r_q r2 = r_q r1 ->
    sc_offset (r_sc r1) = List.length a -> sc_state (r_sc r1) <> SStart ->
    forall s,
      Forall2 (same_token (List.length a) (List.length w1) (List.length w2))
        (fst (consumes r1 s)) (fst (consumes r2 s)) /\
      same_end (snd (consumes r1 s)) (snd (consumes r2 s)).
Proof. exact (fun a t w1 w2 x n o s0 l r1 l' r2 => gap_between a t w1 w2 x n o s0 l l' r1 r2). Qed.
Print Assumptions C40_between_partial.

(** C40 fails for comments beyond ASCII: the reader panics on them. *)
Theorem C40_wide_comment_refuted :
  let t := bytes "a" in
  let w1 := bytes "#e" ++ [10%N] in
  let w2 := [35; 195; 169; 10]%N in
  well_formed (w1 ++ t) /\ well_formed (w2 ++ t) /\
  exists l1 r1 l2, consumes (open (w1 ++ t) (mkFlags false false)) [Fill; Fill] = (l1, Ok r1) /\
    consumes (open (w2 ++ t) (mkFlags false false)) [Fill; Fill] = (l2, Panic).
Proof. exact wide_comment. Qed.
Print Assumptions C40_wide_comment_refuted.

(** Two lines of comments and white space against nothing. *)
Example leading_ok :
  let t := bytes "- a: b" in
  let w1 := bytes " # note" ++ [10; 13; 10; 9; 32]%N in
  let w2 := bytes "  " in
  well_formed (w1 ++ t) /\ well_formed (w2 ++ t) /\ well_formed t /\
  filler t w1 true 2 /\ filler t w2 false 2 /\
  List.length (fst (consumes (open (w1 ++ t) (mkFlags false false)) [Fill; Fill; Pull; Pull; Fill; Pull; Pull; Pull])) = 5.
Proof.
  cbv zeta. split; [apply valid_iff; reflexivity|]. split; [apply valid_iff; reflexivity|]. split; [apply valid_iff; reflexivity|].
  split; [|split; [apply fill_here; repeat constructor|vm_compute; reflexivity]].
  apply (fill_line _ (bytes " ") (bytes "# note") [10%N] [13; 10; 9; 32]%N true 2).
  - repeat constructor.
  - right. exists (bytes " note"). split; [reflexivity|]. repeat constructor; discriminate.
  - discriminate.
  - reflexivity.
  - apply (fill_line _ [] [] [13; 10]%N [9; 32]%N false 2); [constructor|left; reflexivity|discriminate|reflexivity|].
    apply fill_here. repeat (constructor; [first [left; reflexivity|right; reflexivity]|]). constructor.
Qed.

(** A comment behind the colon against an empty line. *)
Example between_ok :
  let a := bytes "a:" in
  let t := bytes "- b" in
  let w1 := bytes " # c" ++ [10%N] in
  let w2 := [10; 10]%N in
  well_formed (a ++ w1 ++ t) /\ well_formed (a ++ w2 ++ t) /\ well_formed t /\
  filler t w1 true 0 /\ filler t w2 true 0 /\
  exists l r1 r2, let s := [Fill; Fill; Pull; Pull] in
    consumes (open (a ++ w1 ++ t) (mkFlags false false)) s = (l, Ok r1) /\
    consumes (open (a ++ w2 ++ t) (mkFlags false false)) s = (l, Ok r2) /\
    r_sc r2 = r_sc r1 /\ r_q r2 = r_q r1 /\ sc_offset (r_sc r1) = List.length a /\ sc_state (r_sc r1) <> SStart /\
    List.length (fst (consumes r1 [Pull; Fill; Pull; Pull; Pull; Pull])) = 5.
Proof.
  cbv zeta. split; [apply valid_iff; reflexivity|]. split; [apply valid_iff; reflexivity|]. split; [apply valid_iff; reflexivity|].
  split; [|split].
  - apply (fill_line _ (bytes " ") (bytes "# c") [10%N] [] false 0); [repeat constructor|right|discriminate|reflexivity|apply (fill_here _ []); constructor].
    exists (bytes " c"). split; [reflexivity|]. repeat constructor; discriminate.
  - apply (fill_line _ [] [] [10%N] [10%N] true 0); [constructor|left; reflexivity|discriminate|reflexivity|].
    apply (fill_line _ [] [] [10%N] [] false 0); [constructor|left; reflexivity|discriminate|reflexivity|]. apply (fill_here _ []). constructor.
  - eexists _, _, _. split; [vm_compute; reflexivity|]. split; [vm_compute; reflexivity|]. split; [vm_compute; reflexivity|]. split; [vm_compute; reflexivity|].
    split; [vm_compute; reflexivity|]. split; [vm_compute; discriminate|vm_compute; reflexivity].
Qed.
