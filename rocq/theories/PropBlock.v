(** Properties C28, C29: borrowed text, values of block scalars. *)
From Verif Require Import SpecUtf8 SpecStream SpecPos SpecQuoted SpecBlank SpecContent SpecBlock SpecBorrow BlockTokens BlockAlone.
Open Scope nat_scope.

(** C28: whatever else the text contains, a scalar delivered without copying stands in the
    text, one character after the other, between the delimiters of its style: the quotes
    of a quoted scalar, indicator, header line and indentation before the lines of a
    block scalar.  Where the token ends, the rest of the text follows. *)
Theorem C28_borrowed :
  forall (t : str) (o : flags), well_formed t ->
    forall s l x e y style, consumes (open t o) s = (l, x) -> In e l -> e_wrap e = Tok (TScalar (Borrowed y) style) ->
      exists n r, delimited style (skipn n t) y r /\ (no_verbatim_tag t -> r = skipn (e_read e) t).
Proof. exact borrowed_streams. Qed.
Print Assumptions C28_borrowed.

(** C29: whatever else the text contains, a block scalar of its stream stands in the text
    as the source of its value, up to its last line break; if all line breaks are line
    feeds, the last line feed is missing at most from a scalar of one line at the end of
    the text whose header does not say what to do with it. *)
Theorem C29_streams :
  forall (t : str) (o : flags), well_formed t ->
    forall s l x e c (fold : bool), consumes (open t o) s = (l, x) -> In e l ->
      e_wrap e = Tok (TScalar c (if fold then Folded else Literal)) ->
      exists n parent b v r, skipn n t = block_indicator fold :: b /\ block fold parent b v r /\
        but_final_break v (cow_str c) /\
        (line_feeds_only t -> cow_str c = v \/ r = [] /\ v = cow_str c ++ [10%N] /\ last_line b (cow_str c)) /\
        (no_verbatim_tag t -> r = skipn (e_read e) t).
Proof. exact block_streams. Qed.
Print Assumptions C29_streams.

(** C29: a source has one value. *)
Theorem C29_determined :
  forall (fold : bool) (parent : nat) (s v r v' r' : str),
    block fold parent s v r -> block fold parent s v' r' -> v' = v /\ r' = r.
Proof. exact block_det. Qed.
Print Assumptions C29_determined.

(** C29: an ASCII text that is a block scalar with some line that is not empty, followed by
    white space and comments only, is read as this scalar. *)
Theorem C29_accepted_partial :
  forall (t b : str) (o : flags) (fold : bool) (v r : str), lazy_mode o = false -> all_ascii t ->
    t = block_indicator fold :: b -> (forall x, b <> 35%N :: x) ->
    block fold 0 b v r -> (exists c, In c v /\ c <> 10%N) -> skips false r [] ->
    exists c, but_final_break v (cow_str c) /\
      (line_feeds_only t -> cow_str c = v \/ r = [] /\ v = cow_str c ++ [10%N] /\ last_line b (cow_str c)) /\
      yields t o [mkEntry (Tok TStreamStart) 0; mkEntry (Tok (TScalar c (if fold then Folded else Literal))) (List.length t - List.length r);
                  mkEntry (Tok TStreamEnd) (List.length t)].
Proof. exact block_alone. Qed.
Print Assumptions C29_accepted_partial.

(** C29: for any lines and any number of line feeds after the last one, up to the end of
    the text, the header decides: no line feed, one if there is any, or all of them.
    Only a single line with a single line feed and no indication is left out. *)
Theorem C29_chomping_partial :
  forall (fold : bool) (h : str) (k : nat) (w0 : str) (l : list (nat * str)) (m : nat) (o : flags),
    lazy_mode o = false -> In h headers -> text_line w0 -> (forall x, w0 <> 32%N :: x /\ w0 <> 9%N :: x) ->
    Forall (fun nw => text_line (snd nw)) l ->
    exists c, yields (block_text fold h k w0 l m) o (lone (TScalar c (if fold then Folded else Literal)) (List.length (block_text fold h k w0 l m))) /\
      (l <> [] \/ In 43%N h \/ In 45%N h \/ m <> 1 -> cow_str c = block_content fold w0 l ++ final_breaks h m).
Proof. exact block_of_lines. Qed.
Print Assumptions C29_chomping_partial.

(** C29 fails for a single line at the end of the text: its line feed is lost. *)
Theorem C29_last_line_refuted :
  exists w, text_line w /\ w <> w ++ [10%N] /\ block false 0 (10%N :: 32%N :: w ++ [10%N]) (w ++ [10%N]) [] /\
    yields (124%N :: 10%N :: 32%N :: w ++ [10%N]) (mkFlags false false)
      (lone (TScalar (Borrowed w) Literal) 5).
Proof. exact last_line_lost. Qed.
Print Assumptions C29_last_line_refuted.

(** C29 fails for line breaks of two characters: half of the last one is kept. *)
Theorem C29_crlf_refuted :
  exists w, text_line w /\ block false 0 ([10%N; 32%N] ++ w ++ [13; 10]%N) (w ++ [10%N]) [] /\
    exists n, yields ([124%N; 10%N; 32%N] ++ w ++ [13; 10]%N) (mkFlags false false) (lone (TScalar (Borrowed (w ++ [13%N])) Literal) n).
Proof. exact crlf_halved. Qed.
Print Assumptions C29_crlf_refuted.

(** C29 fails for empty block scalars: they make the scanner panic, ... *)
Theorem C29_empty_refuted :
  exists b, block false 0 b [] [] /\
    forall o, lazy_mode o = false -> snd (consumes (open (124%N :: b) o) [Fill; Fill]) = Panic.
Proof. exact empty_panics. Qed.
Print Assumptions C29_empty_refuted.

(** ... or are rejected because of the text after them. *)
Theorem C29_sibling_refuted :
  exists b r, block false 0 b [] r /\ r = bytes "- c" /\
    forall o, lazy_mode o = false ->
      snd (consumes (open (bytes "- |" ++ b) o) [Fill; Fill; Fill; Fill]) = Err (RScan InvalidBlockScalar).
Proof. exact sibling_rejected. Qed.
Print Assumptions C29_sibling_refuted.

(** C29 fails for headers with an indentation: they make the scanner panic. *)
Theorem C29_explicit_refuted :
  forall o, lazy_mode o = false ->
    snd (consumes (open (bytes "|1" ++ [10%N] ++ bytes " x" ++ [10%N]) o) [Fill; Fill]) = Panic.
Proof. exact explicit_panics. Qed.
Print Assumptions C29_explicit_refuted.

(** C29 fails beyond ASCII: so do lines with such characters. *)
Theorem C29_multibyte_refuted :
  exists b v, well_formed b /\ block false 0 b v [] /\
    forall o, lazy_mode o = false -> snd (consumes (open (124%N :: b) o) [Fill; Fill]) = Panic.
Proof. exact accent_panics. Qed.
Print Assumptions C29_multibyte_refuted.

(** ** The hypotheses can be met *)
Definition scalars_of (l : list entry) : list (cow * scalar_style) :=
  flat_map (fun e => match e_wrap e with Tok (TScalar c s) => [(c, s)] | _ => [] end) l.
Definition nl : str := [10%N].
(** Borrowed and copied scalars of all styles. *)
Definition block_sample : str :=
  bytes "a: |" ++ nl ++ bytes "  x" ++ nl ++ bytes "'b': >-" ++ nl ++ nl ++ bytes "  y" ++ nl ++ bytes "  z" ++ nl ++ nl ++
  bytes "c: ""d""" ++ nl ++ bytes "e: |+" ++ nl ++ bytes "  f" ++ nl ++ nl ++ bytes "g: 'h''i'".
Example C29_sample : forallb (fun b => (b <? 128)%N) block_sample = true /\ ~ In 33%N block_sample /\
  scalars_of (fst (consumes (open block_sample (mkFlags false false)) (repeat Fill 40 ++ repeat Pull 40))) =
    [(Borrowed (bytes "a"), Plain); (Borrowed (bytes "x" ++ nl), Literal);
     (Borrowed (bytes "b"), SingleQuote); (Owned (nl ++ bytes "y z"), Folded);
     (Borrowed (bytes "c"), Plain); (Borrowed (bytes "d"), DoubleQuote);
     (Borrowed (bytes "e"), Plain); (Owned (bytes "f" ++ nl ++ nl), Literal);
     (Borrowed (bytes "g"), Plain); (Owned (bytes "h'i"), SingleQuote)].
Proof. split; [reflexivity|]. split; [cbn; intuition discriminate|vm_compute; reflexivity]. Qed.

(** Three lines with an empty one between them and four line feeds at the end. *)
Example C29_chomping_sample : exists c,
  yields (bytes "|" ++ nl ++ bytes "  a b" ++ nl ++ nl ++ bytes "   c" ++ nl ++ bytes "  d" ++ repeat 10%N 4) (mkFlags false false)
    (lone (TScalar c Literal) 21) /\
  cow_str c = bytes "a b" ++ nl ++ nl ++ bytes " c" ++ nl ++ bytes "d" ++ nl.
Proof.
  destruct (C29_chomping_partial false [] 1 (bytes "a b") [(1, bytes " c"); (0, bytes "d")] 4 (mkFlags false false) eq_refl) as (c & Y & E).
  - left. reflexivity.
  - split; [discriminate|]. repeat (constructor; [repeat split; (reflexivity || discriminate)|]). constructor.
  - intros x. split; discriminate.
  - repeat (constructor; [split; [discriminate|]; repeat (constructor; [repeat split; (reflexivity || discriminate)|]); constructor|]). constructor.
  - exists c. split; [exact Y|]. apply E. left. discriminate.
Qed.
