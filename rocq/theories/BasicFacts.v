(** Errors, evaluation of scalars, iteration after an error, verbatim tags. *)
From Verif Require Export Errors PeekFacts UriFacts.
From Verif Require Import Utf8Facts SpecUtf8.
From Coq Require Import Lia ZifyBool ZifyN ZifyNat.
Open Scope nat_scope.

(** ** Errors *)
Lemma parse_classes (e : parse_error) :
  (classify (error_of_parse e) = CatIO <-> e = ParserIo) /\
  (classify (error_of_parse e) = CatEOF <->
     e = ParserEOF \/ e = ParserScan UnexpectedEOF \/ e = ParserScan Extend) /\
  (classify (error_of_parse e) = CatData <->
     e = CorruptStream \/ e = ParserUtf8 \/ e = ParserScan IntOverflow).
Proof. destruct e as [| | | | | | | | | | | [] | |]; cbv; intuition congruence. Qed.

Lemma parse_io (e : parse_error) :
  io_of_error (error_of_parse e) =
  Ok (match classify (error_of_parse e) with
      | CatIO => OriginalIo
      | CatSyntax => InvalidInput
      | CatData => InvalidData
      | CatEOF => UnexpectedEofIo
      end).
Proof. destruct e as [| | | | | | | | | | | [] | |]; reflexivity. Qed.

Lemma parse_injective (e e' : parse_error) : error_of_parse e = error_of_parse e' ->
  e = e' \/ classify (error_of_parse e) = CatEOF.
Proof.
  destruct e as [| | | | | | | | | | | [] | |]; destruct e' as [| | | | | | | | | | | [] | |];
    cbv; intros H; try (left; reflexivity); try (right; reflexivity); discriminate H.
Qed.

Lemma reader_agrees (e : reader_error) : error_of_parse (parse_error_of_reader e) = error_of_reader e.
Proof. destruct e; reflexivity. Qed.
Lemma scan_agrees (e : scan_error) : error_of_reader (RScan e) = error_of_scan e.
Proof. reflexivity. Qed.

(** ** Scalars *)
Lemma evaluate_agree s : snd (evaluate_scalar_by_ref s) = evaluate_scalar s.
Proof. unfold evaluate_scalar_by_ref. destruct (evaluate_scalar s) as [[t k]|e| |]; reflexivity. Qed.
Lemma evaluate_twice s t k : evaluate_scalar s = Ok (t, k) ->
  fst (evaluate_scalar_by_ref s) = Eager t k /\
  evaluate_scalar_by_ref (fst (evaluate_scalar_by_ref s)) = (Eager t k, Ok (t, k)).
Proof.
  intros E. assert (F : fst (evaluate_scalar_by_ref s) = Eager t k).
  { unfold evaluate_scalar_by_ref. rewrite E. reflexivity. }
  rewrite F. split; reflexivity.
Qed.
Lemma evaluate_error s e : evaluate_scalar s = Err e ->
  fst (evaluate_scalar_by_ref s) = Eager (Borrowed []) Plain.
Proof. unfold evaluate_scalar_by_ref. intros ->. reflexivity. Qed.

(** ** Iteration after an error *)
Lemma run_fixpoint {R} (T : token_source R) debug p r x :
  next_event T debug p r = (p, r, x) ->
  forall n, run_events T debug n p r = repeat x n.
Proof.
  intros H n. induction n as [|n IH]; [reflexivity|]. cbn [run_events repeat]. rewrite H, IH. reflexivity.
Qed.

Definition stuck_text : str := bytes "%X".
Lemma stuck_runs n :
  let '(p, r) := events_new (Borrow stuck_text) false in
  run_events peek_source false (S n) p r =
  Ok (Some (mkEvent 0 0 EvStreamStart)) :: repeat (Err (ParserScan UnknownDirective)) n.
Proof.
  cbv zeta. unfold events_new.
  change (run_events peek_source false (S n) parser0 (peek_new (reader_new (Borrow stuck_text) (as_scanner false))))
    with (let '(p', r', x) := next_event peek_source false parser0
              (peek_new (reader_new (Borrow stuck_text) (as_scanner false))) in
          x :: run_events peek_source false n p' r').
  destruct (next_event peek_source false parser0 _) as [[p r] x] eqn:E.
  vm_compute in E. injection E as <- <- <-. f_equal.
  apply run_fixpoint. vm_compute. reflexivity.
Qed.

(** ** Byte input *)
Lemma bytes_exact b :
  (well_formed b -> try_from_bytes b = Ok (Borrow b)) /\
  (~ well_formed b -> try_from_bytes b = Err RUtf8).
Proof.
  unfold try_from_bytes. rewrite <- valid_iff. destruct (valid_utf8 b); split; congruence.
Qed.

(** ** Verbatim tags *)
Lemma starts_nil s : starts_with s [] = true.
Proof. destruct s; reflexivity. Qed.
Lemma verbatim_rejected o uri s rest st : spelled true uri s ->
  (forall r, rest <> (62%N :: r)) ->
  exists e, scan_node_tag o (bytes "!<" ++ uri ++ bytes ">" ++ rest) st = Err e.
Proof.
  intros S N. unfold scan_node_tag.
  assert (STOP : uri_stop true (bytes ">" ++ rest)).
  { exists 62%N, rest. split; [reflexivity|]. split; [reflexivity|]. split; [|discriminate].
    rewrite uri_literal_iff. discriminate. }
  assert (HD : head_ok (uri ++ bytes ">" ++ rest)) by (eapply spelled_head; eauto).
  rewrite (cache_ascii o (bytes "!<")) by (repeat constructor; reflexivity). cbn [bind].
  replace (starts_with (bytes "!<" ++ uri ++ bytes ">" ++ rest) (bytes "!<")) with true
    by (symmetry; apply (starts_nil (uri ++ bytes ">" ++ rest))).
  rewrite (skip_app (bytes "!<")) by exact HD. cbn [bind].
  rewrite (scan_tag_uri_complete o true uri s (bytes ">" ++ rest) st S STOP). cbn [bind].
  destruct (cache_at o (uri ++ bytes ">" ++ rest) (List.length uri + 1) 1) as [[]|e| |] eqn:C; cbn [bind].
  - assert (A : at_is (uri ++ bytes ">" ++ rest) (List.length uri + 1) 62 = false).
    { unfold at_is. rewrite nth_error_app2 by lia.
      replace (List.length uri + 1 - List.length uri) with 1 by lia. cbn.
      destruct rest as [|b r]; [reflexivity|]. destruct (N.eqb_spec b 62) as [->|]; [|reflexivity].
      destruct (N r eq_refl). }
    rewrite A. destruct (Nat.ltb _ _); eexists; reflexivity.
  - eexists; reflexivity.
  - pose proof (cache_at_leaf o 1 False (uri ++ bytes ">" ++ rest) (List.length uri + 1)) as X.
    rewrite C in X. destruct X.
  - pose proof (cache_at_leaf o 1 False (uri ++ bytes ">" ++ rest) (List.length uri + 1)) as X.
    rewrite C in X. destruct X.
Qed.

(** ** Percent escapes in node tags and tag prefixes *)
Lemma take_while_run o f t rest : Forall (fun b => f b = true) t -> ascii t ->
  (exists c r, rest = c :: r /\ (c < 128)%N /\ f c = false) ->
  take_while o f (t ++ rest) = Ok (List.length t).
Proof.
  intros F A (c & r & -> & C & FC).
  induction F as [|b t B F IH]; cbn [app take_while List.length].
  - change (c :: r) with ([c] ++ r). rewrite (cache_ascii o [c]) by (repeat constructor; lia).
    cbn [bind app]. rewrite FC. reflexivity.
  - inversion A as [|? ? A1 A2]; subst.
    change (b :: t ++ c :: r) with ([b] ++ (t ++ c :: r)).
    rewrite (cache_ascii o [b]) by (repeat constructor; exact A1). cbn [bind app].
    rewrite B, (IH A2). reflexivity.
Qed.

Lemma alnum_iff b : letter_or_digit b <-> is_alnum b = true.
Proof. unfold letter_or_digit, is_alnum, is_digit, is_upper, is_lower. lia. Qed.

Lemma scan_handle_full o h rest st : full_handle h -> head_ok rest ->
  exists th, scan_tag_handle o (h ++ rest) st
    = Ok (Some (th, List.length h), supd st (List.length h) 0 (List.length h)) /\
    handle_str th = h /\ (forall x, th <> HPrimary x).
Proof.
  intros (name & -> & F) HD. unfold scan_tag_handle.
  set (h := 33%N :: name ++ [33%N]). cbn [app h].
  change (33%N :: (name ++ [33%N]) ++ rest) with ([33%N] ++ ((name ++ [33%N]) ++ rest)).
  rewrite (cache_ascii o [33%N]) by (repeat constructor; reflexivity). cbn [bind app N.eqb Pos.eqb].
  assert (AN : ascii name).
  { eapply Forall_imp; [|exact F]. unfold letter_or_digit. intros b B. lia. }
  assert (FN : Forall (fun b => is_alnum b = true) name).
  { eapply Forall_imp; [|exact F]. intros b B. apply alnum_iff, B. }
  assert (HN : head_ok ((name ++ [33%N]) ++ rest)).
  { destruct AN as [|b name B AN]; cbn; [reflexivity|]. unfold is_cont. lia. }
  change (33%N :: (name ++ [33%N]) ++ rest) with ([33%N] ++ ((name ++ [33%N]) ++ rest)).
  rewrite (skip_app [33%N]) by exact HN. cbn [bind].
  rewrite <- (app_assoc name).
  rewrite (take_while_run o is_alnum name ([33%N] ++ rest) FN AN)
    by (exists 33%N, rest; repeat split).
  cbn [bind].
  assert (SK : skipn (1 + List.length name) ([33%N] ++ name ++ [33%N] ++ rest) = [33%N] ++ rest).
  { cbn [plus app skipn]. apply skipn_app_exact. }
  rewrite cache_at_skip, SK. change (cache_at o ([33%N] ++ rest) 0 1) with (cache o ([33%N] ++ rest) 1).
  rewrite (cache_ascii o [33%N]) by (repeat constructor; reflexivity). cbn [bind].
  replace (at_is ([33%N] ++ name ++ [33%N] ++ rest) (1 + List.length name) 33) with true.
  2: { symmetry. pose proof (at_is_skipn ([33%N] ++ name ++ [33%N] ++ rest) (1 + List.length name) 0 33) as X.
       rewrite Nat.add_0_r in X. rewrite <- X, SK. reflexivity. }
  assert (LH : 1 + List.length name + 1 = List.length h).
  { unfold h. cbn. rewrite app_length. cbn. lia. }
  rewrite LH.
  replace ([33%N] ++ name ++ [33%N] ++ rest) with (h ++ rest)
    by (unfold h; cbn; rewrite <- app_assoc; reflexivity).
  assert (SL : forall E, slice (E := E) (h ++ rest) 0 (List.length h) = Ok h).
  { intros E. unfold slice. cbn [Nat.leb]. change (is_boundary (h ++ rest) 0) with true.
    rewrite boundary_app by exact HD. cbn [andb skipn]. rewrite Nat.sub_0_r, firstn_app_exact. reflexivity. }
  rewrite SL. cbn [bind]. eexists. split; [reflexivity|].
  split; [destruct (List.length name); reflexivity|destruct (List.length name); discriminate].
Qed.

Lemma node_tag_decodes o h t s rest st : full_handle h -> spelled false t s -> uri_stop false rest ->
  exists tok, scan_node_tag o (h ++ t ++ rest) st
    = Ok (tok, List.length (h ++ t), supd st (List.length (h ++ t)) 0 (List.length (h ++ t))) /\
    exists ch cs, tok = TTag ch cs /\ cow_str ch = h /\ cow_str cs = s.
Proof.
  intros H S R. assert (HD : head_ok (t ++ rest)) by (eapply spelled_head; eauto).
  destruct (scan_handle_full o h (t ++ rest) st H HD) as (th & E & HS & NP).
  destruct H as (name & -> & F).
  set (h := 33%N :: name ++ [33%N]) in *.
  assert (A2 : exists a b r, h ++ t ++ rest = a :: b :: r /\ (a < 128)%N /\ (b < 128)%N /\ a = 33%N /\ b <> 60%N).
  { unfold h. destruct F as [|b name B F].
    - cbn. exists 33%N, 33%N, (t ++ rest). repeat split; discriminate.
    - cbn. exists 33%N, b, ((name ++ [33%N]) ++ t ++ rest). unfold letter_or_digit in B. repeat split; lia. }
  destruct A2 as (a & b & r & EQ & A & B & AA & BB).
  assert (CA : cache o (h ++ t ++ rest) 2 = Ok tt).
  { rewrite EQ. apply (cache_ascii o [a; b]). repeat constructor; lia. }
  unfold scan_node_tag. rewrite CA. cbn [bind].
  replace (starts_with (h ++ t ++ rest) (bytes "!<")) with false.
  2: { rewrite EQ. subst a. cbn. replace (b =? 60)%N with false by lia. reflexivity. }
  rewrite E. cbn [bind].
  assert (K : forall x, (let* buf := skip (h ++ t ++ rest) (List.length h) in
       let* '(suffix, amt, st, borrow) := scan_tag_uri o buf
          (supd st (List.length h) 0 (List.length h)) true false in
       Ok (assemble_tag x suffix borrow, buf, amt, st)) =
     Ok (assemble_tag x (if str_eqb t s then Borrowed t else Owned s) (str_eqb t s), t ++ rest, List.length t,
         supd st (List.length (h ++ t)) 0 (List.length (h ++ t)))).
  { intros x. rewrite skip_app by exact HD. cbn [bind].
    rewrite (scan_tag_uri_complete o false t s rest _ S R). cbn [bind].
    rewrite supd_supd, app_length. reflexivity. }
  assert (J : (let* '(tok, buf, amt, st) :=
      match th with
      | HPrimary h0 => Ok (TTag (Borrowed h0) (Borrowed []), h ++ t ++ rest, List.length h,
                           supd st (List.length h) 0 (List.length h))
      | HSecondary h0 | HNamed h0 =>
         let* buf := skip (h ++ t ++ rest) (List.length h) in
         let* '(suffix, amt, st, borrow) := scan_tag_uri o buf
            (supd st (List.length h) 0 (List.length h)) true false in
         Ok (assemble_tag h0 suffix borrow, buf, amt, st) end in
      let* buf := skip buf amt in Ok (tok, consumed (h ++ t ++ rest) buf, st)) =
    Ok (assemble_tag h (if str_eqb t s then Borrowed t else Owned s) (str_eqb t s),
        List.length (h ++ t), supd st (List.length (h ++ t)) 0 (List.length (h ++ t)))).
  { destruct th as [x|x|x]; [destruct (NP x eq_refl)| |]; cbn in HS; subst x; rewrite K; cbn [bind];
      (rewrite skip_app by (destruct R as (c & q & -> & Q & _); apply ascii_head, Q)); cbn [bind];
      rewrite app_assoc, consumed_app; reflexivity. }
  exists (assemble_tag h (if str_eqb t s then Borrowed t else Owned s) (str_eqb t s)).
  split.
  - rewrite <- J. destruct th; reflexivity.
  - unfold assemble_tag. destruct (str_eqb t s) eqn:SE.
    + apply BaseFacts.str_eqb_eq in SE. eexists _, _. repeat split. exact SE.
    + eexists _, _. repeat split.
Qed.

Definition no_blank (s : str) : Prop :=
  match s with b :: _ => b <> 32%N /\ b <> 9%N /\ b <> 10%N /\ b <> 13%N /\ (b < 128)%N | [] => False end.
Lemma blanks_head w s : blanks w -> head_ok s -> head_ok (w ++ s).
Proof.
  intros W N. destruct W as [|b w B W]; [exact N|]. apply ascii_head. lia.
Qed.
Lemma no_blank_head s : no_blank s -> head_ok s.
Proof. destruct s as [|c s]; [intros []|]. intros N. apply ascii_head. apply N. Qed.
Lemma no_break_ascii b s : (b < 128)%N -> b <> 10%N -> b <> 13%N -> is_break (b :: s) = false.
Proof.
  intros A B C. unfold is_break, break_amt.
  replace (b =? 13)%N with false by lia. replace (b =? 10)%N with false by lia.
  replace (b =? 194)%N with false by lia. replace (b =? 226)%N with false by lia. reflexivity.
Qed.
Lemma cache1 o b s : (b < 128)%N -> cache o (b :: s) 1 = Ok tt.
Proof. intros B. apply (cache_ascii o [b] s). repeat constructor. exact B. Qed.
Lemma adv1 b s st : head_ok s -> adv (b :: s) st 1 = Ok (s, supd st 1 0 1).
Proof. apply (adv_app [b] s). Qed.
Lemma eat_blanks_runs o w s : blanks w -> no_blank s -> forall st,
  runs (eat_ws_body o false) (w ++ s, st, false)
       (s, supd st (List.length w) 0 (List.length w)).
Proof.
  intros W N. induction W as [|b w B W IH]; intros st.
  - destruct s as [|c s]; [destruct N|]. destruct N as (N1 & N2 & N3 & N4 & N5).
    apply runs_done. cbn [app]. unfold eat_ws_body.
    rewrite cache1 by exact N5.
    cbn [bind andb app]. rewrite no_break_ascii by assumption. unfold is_blank, at_is.
    cbn [nth_error]. replace ((c =? 32)%N || (c =? 9)%N) with false by lia.
    destruct st. unfold supd. cbn. rewrite !Nat.add_0_r. reflexivity.
  - apply runs_next with (s' := (w ++ s, supd st 1 0 1, false)).
    + cbn [app]. unfold eat_ws_body. assert (B8 : (b < 128)%N) by lia.
      rewrite cache1 by exact B8.
      cbn [bind app]. rewrite no_break_ascii by lia. unfold is_blank, at_is.
      cbn [nth_error]. replace ((b =? 32)%N || (b =? 9)%N) with true by lia.
      rewrite adv1 by (apply blanks_head, no_blank_head; assumption). reflexivity.
    + replace (supd st (List.length (b :: w)) 0 (List.length (b :: w)))
        with (supd (supd st 1 0 1) (List.length w) 0 (List.length w)) by (rewrite supd_supd; reflexivity).
      apply IH.
Qed.
Lemma eat_blanks o w s st : blanks w -> no_blank s ->
  eat_whitespace o (w ++ s) st false = Ok (s, supd st (List.length w) 0 (List.length w)).
Proof.
  intros W N. unfold eat_whitespace. eapply runs_loop; [apply eat_blanks_runs; assumption|].
  pose proof (eat_ws_leaf o (w ++ s) st false) as L. unfold eat_whitespace in L.
  intros E. rewrite E in L. exact L.
Qed.

Lemma spelled_no_blank v t s rest : spelled v t s -> t <> [] -> no_blank (t ++ rest).
Proof.
  intros S NE. destruct S as [|b t s L S|w e t s W P S]; [contradiction| |].
  - cbn. unfold uri_literal, letter_or_digit in L. cbn [In] in L. lia.
  - destruct (encode_nonempty w) as (a & r & E). rewrite E in P. inversion P; subst. cbn. lia.
Qed.

(** [%TAG handle prefix]: the part behind the name of the directive. *)
Lemma tag_directive_decodes o h w t s c rest st : full_handle h -> blanks w -> w <> [] ->
  spelled false t s -> t <> [] -> In c [32; 9; 10; 13]%N ->
  exists tok, scan_tag_directive o (h ++ w ++ t ++ c :: rest) st
    = Ok (tok, List.length (h ++ w ++ t),
          supd st (List.length (h ++ w ++ t)) 0 (List.length (h ++ w ++ t))) /\
    exists ch cp, tok = TTagDirective ch cp /\ cow_str ch = h /\ cow_str cp = s.
Proof.
  intros H W WN S TN C.
  assert (R : uri_stop false (c :: rest)).
  { exists c, rest. split; [reflexivity|]. cbn [In] in C. unfold uri_literal, letter_or_digit. cbn [In].
    lia. }
  assert (NB : no_blank (t ++ c :: rest)) by (eapply spelled_no_blank; eauto).
  assert (HW : head_ok (w ++ t ++ c :: rest)) by (apply blanks_head, no_blank_head; assumption).
  destruct (scan_handle_full o h _ st H HW) as (th & E & HS & _).
  unfold scan_tag_directive. rewrite E. cbn [bind]. rewrite HS, skip_app by exact HW. cbn [bind].
  destruct W as [|b w B W]; [contradiction|].
  assert (CA : cache o ((b :: w) ++ t ++ c :: rest) 1 = Ok tt).
  { apply (cache_ascii o [b]). repeat constructor. lia. }
  rewrite CA. cbn [bind is_empty app].
  replace (is_blank (b :: w ++ t ++ c :: rest)) with true.
  2: { unfold is_blank, at_is. cbn [nth_error]. lia. }
  cbn [negb]. change (b :: w ++ t ++ c :: rest) with ((b :: w) ++ t ++ c :: rest).
  rewrite eat_blanks; [|constructor; assumption|exact NB]. cbn [bind].
  rewrite (scan_tag_uri_complete o false t s (c :: rest) _ S R). cbn [bind].
  replace (is_ws_at (t ++ c :: rest) (List.length t)) with true.
  2: { unfold is_ws_at. rewrite skipn_app_exact. unfold is_ws, is_break, is_blank, break_amt, at_is. cbn [nth_error].
       cbn [In] in C. destruct C as [<-|[<-|[<-|[<-|[]]]]]; try reflexivity.
       destruct rest as [|d rest]; [reflexivity|]. cbn. destruct (d =? 10)%N; reflexivity. }
  rewrite skip_app by (destruct R as (c' & q & Eq & Q & _); injection Eq as -> ->; apply ascii_head, Q).
  cbn [bind]. rewrite !supd_supd.
  replace (h ++ (b :: w) ++ t ++ c :: rest) with ((h ++ (b :: w) ++ t) ++ c :: rest)
    by (rewrite <- !app_assoc; reflexivity).
  rewrite consumed_app.
  replace (List.length h + (List.length (b :: w) + List.length t)) with (List.length (h ++ (b :: w) ++ t))
    by (rewrite !app_length; lia).
  eexists. split; [reflexivity|].
  destruct (str_eqb t s) eqn:SE.
  - apply BaseFacts.str_eqb_eq in SE. eexists _, _. repeat split. exact SE.
  - eexists _, _. repeat split.
Qed.

Lemma hex_digit_value v : (v < 16)%N -> hex_value (hex_digit v) v.
Proof.
  intros V. unfold hex_digit. destruct (v <? 10)%N eqn:E; [apply hex_dec|apply hex_upper]; lia.
Qed.
Lemma percent_encode_spells s : Forall (fun b => (b < 256)%N) s -> percent (percent_encode s) s.
Proof.
  induction 1 as [|b s B F IH]; [constructor|].
  apply percent_cons with (x := (b / 16)%N) (y := (b mod 16)%N); [| | |exact IH].
  - apply hex_digit_value. apply N.div_lt_upper_bound; lia.
  - apply hex_digit_value. apply N.mod_lt. lia.
  - apply N.div_mod'.
Qed.
Lemma encode_bytes v : scalar_value v -> Forall (fun b => (b < 256)%N) (encode v).
Proof.
  intros V. destruct (encode_nonempty v) as (b & r & E). rewrite E.
  destruct (encode_octets v b r V E) as (_ & F & B). constructor; [exact B|].
  eapply Forall_imp; [|exact F]. cbv beta. unfold is_cont. intros c C. lia.
Qed.
Lemma every_text_spelled v s : well_formed s -> spelled v (percent_encode s) s.
Proof.
  intros (ps & F & ->). induction F as [|p ps P F IH]; [constructor|].
  cbn [flat_map]. unfold percent_encode. rewrite flat_map_app.
  apply spelled_char; [exact P| |exact IH]. apply percent_encode_spells, encode_bytes, P.
Qed.

(** ** Documents *)
(** Scanning the text [t] delivers the tokens [l], then the end. *)
Definition scans (lazy : bool) (t : str) (l : list token) : Prop :=
  exists n es, map e_wrap es = map Tok l /\
    taken (peek_new (reader_new (Borrow t) (as_scanner lazy))) n
    = map (fun e => Ok (Some e)) es ++ [Ok None].

Lemma evaluation s :
    snd (evaluate_scalar_by_ref s) = evaluate_scalar s /\
    (forall t k, evaluate_scalar s = Ok (t, k) ->
       fst (evaluate_scalar_by_ref s) = Eager t k /\
       evaluate_scalar_by_ref (fst (evaluate_scalar_by_ref s)) = (Eager t k, Ok (t, k))) /\
    (forall e, evaluate_scalar s = Err e ->
       fst (evaluate_scalar_by_ref s) = Eager (Borrowed []) Plain) /\
    (forall t k, s = Eager t k -> evaluate_scalar s = Ok (t, k)).
Proof.
  split; [apply evaluate_agree|]. split; [apply evaluate_twice|].
  split; [apply evaluate_error|]. intros t k ->. reflexivity.
Qed.

Lemma look_consume p p' x : pk_look p = (p', Ok x) ->
  (snd (pk_pop p) = Ok x /\ pk_pop p' = pk_pop p /\ pk_look p' = (p', Ok x) /\ pk_peek p' = x) /\
  pk_consume p' = (fst (pk_pop p), match x with Some _ => true | None => false end).
Proof. intros H. split; [apply look_then_pop, H|apply consume_after_look, H]. Qed.

Lemma taken_more p m n : m <= n -> exists r, taken p n = taken p m ++ r.
Proof.
  unfold taken. revert p n. induction m as [|m IH]; intros p n L; [eexists; reflexivity|].
  destruct n as [|n]; [lia|]. cbn [repeat served].
  destruct (pk_pop p) as [p' x]. cbn [map app snd]. destruct x as [x|e| |]; try (exists []; reflexivity).
  destruct (IH p' n ltac:(lia)) as [r R]. exists r. rewrite R. reflexivity.
Qed.
Lemma ends_unique (es es' : list entry) r r' :
  map (fun e => Ok (E := reader_error) (Some e)) es ++ [Ok None] ++ r
  = map (fun e => Ok (Some e)) es' ++ [Ok None] ++ r' -> es = es'.
Proof.
  revert es'. induction es as [|e es IH]; intros [|e' es'] H; cbn in H; try discriminate; [reflexivity|].
  injection H as -> H. f_equal. apply IH, H.
Qed.
Lemma scans_fun lazy t l l' : scans lazy t l -> scans lazy t l' -> l = l'.
Proof.
  intros (n & es & E & R) (n' & es' & E' & R').
  set (p := peek_new _) in *.
  destruct (taken_more p n (n + n') ltac:(lia)) as [r A].
  destruct (taken_more p n' (n + n') ltac:(lia)) as [r' B].
  rewrite R in A. rewrite R' in B. rewrite A, <- !app_assoc in B. apply ends_unique in B. subst es'.
  rewrite E in E'. clear -E'. revert l' E'. induction l as [|x l IH]; intros [|y l'] E; cbn in E; try discriminate; [reflexivity|].
  injection E as -> E. f_equal. apply IH, E.
Qed.

Definition entry_of (x : rres (option entry)) : list entry := match x with Ok (Some e) => [e] | _ => [] end.
Definition token_of (e : entry) : list token := match e_wrap e with Tok t => [t] | Lazy _ => [] end.
Lemma documents_dependent :
  exists (a b : str) (x y : list token),
    scans false a (TStreamStart :: x ++ [TStreamEnd]) /\
    scans false b (TStreamStart :: y ++ [TStreamEnd]) /\
    ~ scans false (a ++ bytes "---" ++ [10%N] ++ b)
        (TStreamStart :: x ++ [TDocumentStart] ++ y ++ [TStreamEnd]) /\
    (exists z, scans false (a ++ bytes "---" ++ [10%N] ++ b)
        (TStreamStart :: x ++ [TDocumentStart] ++ z ++ [TStreamEnd]) /\ ~ In TBlockMappingStart z /\
        In TBlockMappingStart y).
Proof.
  exists (bytes "a: 1" ++ [10%N]), (bytes "b: 2" ++ [10%N]),
    [TBlockMappingStart; TKey; TScalar (Borrowed (bytes "a")) Plain; TValue;
     TScalar (Owned (bytes "1")) Plain; TBlockEnd],
    [TBlockMappingStart; TKey; TScalar (Borrowed (bytes "b")) Plain; TValue;
     TScalar (Owned (bytes "2")) Plain; TBlockEnd].
  set (z := [TKey; TScalar (Borrowed (bytes "b")) Plain; TValue; TScalar (Owned (bytes "2")) Plain]).
  set (T := fun t => taken (peek_new (reader_new (Borrow t) (as_scanner false))) 40).
  assert (Z : scans false ((bytes "a: 1" ++ [10%N]) ++ bytes "---" ++ [10%N] ++ bytes "b: 2" ++ [10%N])
    (TStreamStart :: [TBlockMappingStart; TKey; TScalar (Borrowed (bytes "a")) Plain; TValue;
     TScalar (Owned (bytes "1")) Plain; TBlockEnd] ++ [TDocumentStart] ++ z ++ [TStreamEnd])).
  { exists 14, (flat_map entry_of (T ((bytes "a: 1" ++ [10%N]) ++ bytes "---" ++ [10%N] ++ bytes "b: 2" ++ [10%N]))).
    vm_compute. split; reflexivity. }
  split; [|split; [|split]].
  - exists 9, (flat_map entry_of (T (bytes "a: 1" ++ [10%N]))). vm_compute. split; reflexivity.
  - exists 9, (flat_map entry_of (T (bytes "b: 2" ++ [10%N]))). vm_compute. split; reflexivity.
  - intros S. pose proof (scans_fun _ _ _ _ Z S) as E. discriminate E.
  - exists z. split; [exact Z|]. split; [|left; reflexivity].
    cbn. intuition discriminate.
Qed.
