(** Properties C22-C24, C26, C28: what quoted scalars stand for. *)
From Verif Require Import SpecUtf8 SpecStream SpecQuoted SpecContent Utf8Facts ContentFacts.
Open Scope nat_scope.

(** C22 for ASCII texts: a text without white space written in single quotes, its
    quotes doubled, is read back as one scalar with that text, and the scalar ends with
    the closing quote. *)
Theorem C22_round_trip_partial :
  forall (v : str) (o : flags), lazy_mode o = false -> all_ascii v -> no_white v ->
    exists c, cow_str c = v /\
      yields (in_single_quotes v) o (lone (TScalar c SingleQuote) (List.length (in_single_quotes v))).
Proof. exact (fun v o => single_quotes v o). Qed.
Print Assumptions C22_round_trip_partial.

(** C22 does not hold of other texts: the scanner panics on the letter e with an acute
    accent in single quotes. *)
Theorem C22_round_trip_refuted :
  exists v, well_formed v /\ no_white v /\
    forall o, lazy_mode o = false -> snd (consumes (open (in_single_quotes v) o) [Fill; Fill]) = Panic.
Proof. exact accent. Qed.
Print Assumptions C22_round_trip_refuted.

(** C22, C26: whatever else the text contains, a single quoted scalar of its stream
    stands in the text after a single quote, has the value its source stands for
    there, and ends where its source ends. *)
Theorem C26_single_quoted :
  forall (t : str) (o : flags), well_formed t ->
    forall s l x e c, consumes (open t o) s = (l, x) -> In e l -> e_wrap e = Tok (TScalar c SingleQuote) ->
      exists n body r, skipn n t = 39%N :: body /\ quoted true body (cow_str c) r /\
        (no_verbatim_tag t -> r = skipn (e_read e) t).
Proof. exact single_quoted_streams. Qed.
Print Assumptions C26_single_quoted.

(** C23, C26: the same of double quoted scalars of texts whose escapes of eight digits
    begin with 000 or 001 (so that no byte is truncated). *)
Theorem C23_double_quoted_partial :
  forall (t : str) (o : flags), well_formed t -> no_wide_escape t ->
    forall s l x e c, consumes (open t o) s = (l, x) -> In e l -> e_wrap e = Tok (TScalar c DoubleQuote) ->
      exists n body r, skipn n t = 34%N :: body /\ quoted false body (cow_str c) r /\
        (no_verbatim_tag t -> r = skipn (e_read e) t).
Proof. exact double_quoted_streams. Qed.
Print Assumptions C23_double_quoted_partial.

(** C23, C26: conversely any ASCII source of a quoted scalar, alone in a text, is read
    as one scalar with the value it stands for. *)
Theorem C23_quoted_complete :
  forall (single : bool) (s v : str) (o : flags), lazy_mode o = false -> all_ascii s -> quoted single s v [] ->
    exists c, cow_str c = v /\
      yields (quote_of single :: s) o (lone (TScalar c (style_of single)) (S (List.length s))).
Proof. exact quoted_alone. Qed.
Print Assumptions C23_quoted_complete.

(** C23: any sequence of escapes that denote characters is read as these characters,
    whatever the characters. *)
Theorem C23_escapes :
  forall (es : list (str * N)) (o : flags), lazy_mode o = false ->
    Forall (fun ec => denotes (fst ec) (snd ec) /\ scalar_value (snd ec)) es ->
    exists c, cow_str c = flat_map (fun ec => encode (snd ec)) es /\
      yields (34%N :: flat_map fst es ++ [34%N]) o
        (lone (TScalar c DoubleQuote) (List.length (flat_map fst es) + 2)).
Proof. exact escapes. Qed.
Print Assumptions C23_escapes.

(** C24: an escape of eight digits that denotes no character is read as one. *)
Theorem C24_wide_escape_refuted :
  exists e v, denotes e v /\ ~ scalar_value v /\
    forall o, lazy_mode o = false -> exists r,
      consumes (open (34%N :: e ++ [34%N]) o) [Fill; Fill; Pull; Pull; Pull] =
        (lone (TScalar (Owned (encode 65536)) DoubleQuote) 12, Ok r).
Proof. exact wide_escape. Qed.
Print Assumptions C24_wide_escape_refuted.

(** C24: an escape that denotes a surrogate is no error but a panic. *)
Theorem C24_surrogate_refuted :
  exists e v, denotes e v /\ ~ scalar_value v /\
    forall o, lazy_mode o = false -> snd (consumes (open (34%N :: e ++ [34%N]) o) [Fill; Fill]) = Panic.
Proof. exact surrogate. Qed.
Print Assumptions C24_surrogate_refuted.

(** C26: of words separated by white space and line breaks, white space without a
    break stays, one break and the blanks around it become a space, n + 1 breaks
    become n line feeds. *)
Theorem C26_folding :
  forall (single : bool) (w0 : str) (l : list (list piece * str)) (o : flags), lazy_mode o = false ->
    w0 = [] \/ word w0 -> Forall (fun gw => fst gw <> [] /\ word (snd gw)) l ->
    exists c, cow_str c = meaning w0 l /\
      yields (quote_of single :: source w0 l ++ [quote_of single]) o
        (lone (TScalar c (style_of single)) (List.length (source w0 l) + 2)).
Proof. exact folding. Qed.
Print Assumptions C26_folding.

(** ** Instances *)
Definition plain_opts : flags := mkFlags false false.

Example C22_sample : exists c, cow_str c = bytes "it's" /\
  yields (bytes "'it''s'") plain_opts (lone (TScalar c SingleQuote) 7).
Proof.
  apply (C22_round_trip_partial (bytes "it's") plain_opts eq_refl);
    repeat (constructor; [repeat split; (reflexivity || discriminate)|]); constructor.
Qed.

(** All escapes of the table and a numeric one. *)
Example C23_sample : exists c, cow_str c = [0; 7; 8; 9; 9; 10; 11; 12; 13; 27; 32; 34; 47; 92; 194; 133;
      194; 160; 226; 128; 168; 226; 128; 169; 240; 159; 152; 128]%N /\
  yields (bytes """\0\a\b\t\	\n\v\f\r\e\ \""\/\\\N\_\L\P\U0001F600""") plain_opts (lone (TScalar c DoubleQuote) 48).
Proof.
  apply (C23_escapes (map (fun cv => ([92%N; fst cv], snd cv)) escape_table ++ [(bytes "\U0001F600", 128512%N)]) plain_opts eq_refl).
  rewrite Forall_app. split.
  - apply Forall_map, Forall_forall. intros [c v] IN. split; [constructor; exact IN|].
    cbn in IN. repeat (destruct IN as [IN|IN]; [injection IN as _ <-; unfold scalar_value; cbn; split; [discriminate|intros [A B]; apply A; reflexivity]|]).
    destruct IN.
  - constructor; [|constructor]. split.
    + apply (den_number 85%N 8 (bytes "0001F600")); [right; right; left; reflexivity|reflexivity|].
      repeat (constructor; [unfold hex_digit; cbn; (left; split; discriminate) || (right; left; split; discriminate)|]). constructor.
    + unfold scalar_value. cbn. split; [discriminate|]. intros [A B]. apply B. reflexivity.
Qed.

Example C26_sample : exists c, cow_str c = bytes "a b" ++ [10%N] ++ bytes "c  d" /\
  yields (bytes """a " ++ [10%N] ++ bytes "  b" ++ [10; 13; 10]%N ++ bytes "c  d""") plain_opts
    (lone (TScalar c DoubleQuote) 15).
Proof.
  apply (C26_folding false (bytes "a")
    [([Space; LineFeed; Space; Space], bytes "b"); ([LineFeed; CrLf], bytes "c"); ([Space; Space], bytes "d")] plain_opts eq_refl).
  - right. repeat split; try discriminate; repeat (constructor; [repeat split; (reflexivity || discriminate)|]); constructor.
  - repeat (constructor; [split; [discriminate|]; repeat split; try discriminate;
      repeat (constructor; [repeat split; (reflexivity || discriminate)|]); constructor|]). constructor.
Qed.
