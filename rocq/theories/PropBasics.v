(** Properties C10, C11, C21, C25, C34-C37, C39. *)
From Verif Require Import SpecQueue QueueFacts SpecUtf8 SpecUri BasicFacts.

(** C10 is false.  An error is not remembered: the scanner stands at the same place
    and reports it again at each call, so no number of calls reaches the end. *)
Theorem C10_iteration_ends_refuted :
  exists (text : str) (e : parse_error),
    forall n, let '(p, r) := events_new (Borrow text) false in
      run_events peek_source false (S n) p r
      = Ok (Some (mkEvent 0 0 EvStreamStart)) :: repeat (Err e) n.
Proof. exact (ex_intro _ _ (ex_intro _ _ stuck_runs)). Qed.
Print Assumptions C10_iteration_ends_refuted.

(** C11: the answers of any history of pushes, pops and sorts, for any type with a
    total order, are those of a list of pending items in order of insertion from
    which a pop takes the least, the earliest of its equals. *)
Theorem C11_stable_queue :
  forall (T : Type) (cmp : T -> T -> comparison), total_order T cmp ->
    forall ops : list (op T),
      exists l, answers T cmp [] ops (fst (play T cmp q_new ops)) l /\
        q_len (snd (play T cmp q_new ops)) = List.length l.
Proof. exact queue_answers. Qed.
Print Assumptions C11_stable_queue.

(** C11: taking the queue as a sorted vector is a stable sort. *)
Theorem C11_stable_sort :
  forall (T : Type) (cmp : T -> T -> comparison), total_order T cmp ->
    forall l : list T, stable_sort T cmp l (q_sorted T cmp (q_from T l)).
Proof. exact queue_sorts. Qed.
Print Assumptions C11_stable_sort.

Example C11_total_order : total_order nat Nat.compare.
Proof.
  split; [intros a b; apply PeanoNat.Nat.compare_antisym|].
  intros a b c. rewrite !PeanoNat.Nat.compare_le_iff. apply PeanoNat.Nat.le_trans.
Qed.
Example C11_run :
  fst (play (nat * nat) (fun a b => Nat.compare (fst a) (fst b)) q_new
    [Push (2, 0); Push (1, 0); Push (2, 1); Push (1, 1); Pop; Push (0, 7); Pop; Sort; Pop; Pop; Pop; Pop])
  = [Some (1, 0); Some (0, 7); Some (1, 1); Some (2, 0); Some (2, 1); None].
Proof. vm_compute. reflexivity. Qed.

(** C21: both ways of evaluating agree; a successful evaluation leaves an eager
    scalar behind that evaluates to the same; an eager scalar evaluates to itself. *)
Theorem C21_evaluation :
  forall s : scalar_like,
    snd (evaluate_scalar_by_ref s) = evaluate_scalar s /\
    (forall t k, evaluate_scalar s = Ok (t, k) ->
       fst (evaluate_scalar_by_ref s) = Eager t k /\
       evaluate_scalar_by_ref (fst (evaluate_scalar_by_ref s)) = (Eager t k, Ok (t, k))) /\
    (forall e, evaluate_scalar s = Err e ->
       fst (evaluate_scalar_by_ref s) = Eager (Borrowed []) Plain) /\
    (forall t k, s = Eager t k -> evaluate_scalar s = Ok (t, k)).
Proof. exact evaluation. Qed.
Print Assumptions C21_evaluation.
Example C21_lazy :
  evaluate_scalar_by_ref (LazyS (DFlow (mkFlags false true) (bytes "'a''b'") (mkStats 0 0 0) true))
  = (Eager (Owned (bytes "a'b")) SingleQuote, Ok (Owned (bytes "a'b"), SingleQuote)).
Proof. vm_compute. reflexivity. Qed.

(** C25: a percent-encoded suffix after a handle [!!] or [!name!] is decoded to the
    text it spells. *)
Theorem C25_node_tag_decodes :
  forall o h t s rest st, full_handle h -> spelled false t s -> uri_stop false rest ->
    exists tok, scan_node_tag o (h ++ t ++ rest) st
      = Ok (tok, List.length (h ++ t), supd st (List.length (h ++ t)) 0 (List.length (h ++ t))) /\
      exists ch cs, tok = TTag ch cs /\ cow_str ch = h /\ cow_str cs = s.
Proof. exact node_tag_decodes. Qed.
Print Assumptions C25_node_tag_decodes.

(** C25: so is the prefix of a tag directive. *)
Theorem C25_tag_prefix_decodes :
  forall o h w t s c rest st, full_handle h -> blanks w -> w <> [] ->
    spelled false t s -> t <> [] -> In c [32; 9; 10; 13]%N ->
    exists tok, scan_tag_directive o (h ++ w ++ t ++ c :: rest) st
      = Ok (tok, List.length (h ++ w ++ t),
            supd st (List.length (h ++ w ++ t)) 0 (List.length (h ++ w ++ t))) /\
      exists ch cp, tok = TTagDirective ch cp /\ cow_str ch = h /\ cow_str cp = s.
Proof. exact tag_directive_decodes. Qed.
Print Assumptions C25_tag_prefix_decodes.

(** C25: what is accepted as a URI spells the text delivered. *)
Theorem C25_uri_sound :
  forall o v base st c amt st' b, scan_tag_uri o base st true v = Ok (c, amt, st', b) ->
    exists t s x r, base = t ++ x :: r /\ spelled v t s /\ ~ uri_literal v x /\ x <> 37%N /\
      amt = List.length t /\ cow_str c = s /\
      (c = Borrowed t /\ b = true \/ c = Owned s /\ b = false).
Proof. exact scan_tag_uri_sound. Qed.
Print Assumptions C25_uri_sound.

(** C25: every text can be spelled by encoding all its bytes. *)
Theorem C25_every_text :
  forall v s, well_formed s -> spelled v (percent_encode s) s.
Proof. exact every_text_spelled. Qed.
Print Assumptions C25_every_text.
Example C25_run :
  scan_node_tag (mkFlags false false) (bytes "!e!caf%c3%A9%21 x") (mkStats 0 0 0)
  = Ok (TTag (Owned (bytes "!e!")) (Owned (bytes "caf" ++ [195; 169; 33]%N)), 15, mkStats 15 0 15).
Proof. vm_compute. reflexivity. Qed.

(** C34 is false.  The scanner remembers that a block collection was opened at the
    first column and opens none in later documents. *)
Theorem C34_documents_independent_refuted :
  exists (a b : str) (x y : list token),
    scans false a (TStreamStart :: x ++ [TStreamEnd]) /\
    scans false b (TStreamStart :: y ++ [TStreamEnd]) /\
    ~ scans false (a ++ bytes "---" ++ [10%N] ++ b)
        (TStreamStart :: x ++ [TDocumentStart] ++ y ++ [TStreamEnd]) /\
    (exists z, scans false (a ++ bytes "---" ++ [10%N] ++ b)
        (TStreamStart :: x ++ [TDocumentStart] ++ z ++ [TStreamEnd]) /\ ~ In TBlockMappingStart z /\
        In TBlockMappingStart y).
Proof. exact documents_dependent. Qed.
Print Assumptions C34_documents_independent_refuted.

(** C35: the categories of parser errors. *)
Theorem C35_categories :
  forall e : parse_error,
    (classify (error_of_parse e) = CatIO <-> e = ParserIo) /\
    (classify (error_of_parse e) = CatEOF <->
       e = ParserEOF \/ e = ParserScan UnexpectedEOF \/ e = ParserScan Extend) /\
    (classify (error_of_parse e) = CatData <->
       e = CorruptStream \/ e = ParserUtf8 \/ e = ParserScan IntOverflow).
Proof. exact parse_classes. Qed.
Print Assumptions C35_categories.

(** C35: conversion to an IO error never panics, gives back the IO error an error
    came from, and otherwise a kind that depends on the category alone. *)
Theorem C35_io :
  forall e : parse_error,
    io_of_error (error_of_parse e) =
    Ok (match classify (error_of_parse e) with
        | CatIO => OriginalIo
        | CatSyntax => InvalidInput
        | CatData => InvalidData
        | CatEOF => UnexpectedEofIo
        end).
Proof. exact parse_io. Qed.
Print Assumptions C35_io.

(** C35: only errors of the class EOF share a code, and an error has the same code
    whichever layer reports it. *)
Theorem C35_codes :
  (forall e e' : parse_error, error_of_parse e = error_of_parse e' ->
     e = e' \/ classify (error_of_parse e) = CatEOF) /\
  (forall e : reader_error, error_of_parse (parse_error_of_reader e) = error_of_reader e) /\
  (forall e : scan_error, error_of_reader (RScan e) = error_of_scan e).
Proof. exact (conj parse_injective (conj reader_agrees scan_agrees)). Qed.
Print Assumptions C35_codes.

(** C36 *)
Theorem C36_bytes :
  forall b : str,
    (well_formed b -> try_from_bytes b = Ok (Borrow b)) /\
    (~ well_formed b -> try_from_bytes b = Err RUtf8).
Proof. exact bytes_exact. Qed.
Print Assumptions C36_bytes.
Example C36_accepts : try_from_bytes [194; 133; 240; 159; 146; 169]%N = Ok (Borrow [194; 133; 240; 159; 146; 169]%N).
Proof. vm_compute. reflexivity. Qed.
Example C36_rejects_surrogate : try_from_bytes [237; 160; 128]%N = Err RUtf8.
Proof. vm_compute. reflexivity. Qed.

(** C37: up to the first error, the answers to any mix of looks and takes are those
    of one stream, which taking alone delivers: a look answers with its head, a take
    removes it. *)
Theorem C37_peek :
  forall (asks : list ask) (p : peek_reader) (n : nat), List.length asks <= n ->
    explained (served p asks) (taken p n).
Proof. exact explained_served. Qed.
Print Assumptions C37_peek.

(** C37: a look that succeeds, and the [consume] that may follow it, against a pop. *)
Theorem C37_consume :
  forall (p p' : peek_reader) (x : option entry), pk_look p = (p', Ok x) ->
    (snd (pk_pop p) = Ok x /\ pk_pop p' = pk_pop p /\ pk_look p' = (p', Ok x) /\ pk_peek p' = x) /\
    pk_consume p' = (fst (pk_pop p), match x with Some _ => true | None => false end).
Proof. exact look_consume. Qed.
Print Assumptions C37_consume.
Example C37_run :
  map snd (served (peek_new (reader_new (Borrow (bytes "[]")) (as_scanner false)))
            [Look; Look; Take; Take; Look; Take; Take; Look; Take])
  = [Ok (Some (mkEntry (Tok TStreamStart) 0)); Ok (Some (mkEntry (Tok TStreamStart) 0));
     Ok (Some (mkEntry (Tok TStreamStart) 0)); Ok (Some (mkEntry (Tok TFlowSequenceStart) 1));
     Ok (Some (mkEntry (Tok TFlowSequenceEnd) 2)); Ok (Some (mkEntry (Tok TFlowSequenceEnd) 2));
     Ok (Some (mkEntry (Tok TStreamEnd) 2)); Ok None; Ok None].
Proof. vm_compute. reflexivity. Qed.

(** C39 is false: no verbatim tag is accepted, unless a second [>] follows it. *)
Theorem C39_verbatim_refuted :
  forall o uri s rest st, spelled true uri s -> (forall r, rest <> (62%N :: r)) ->
    exists e, scan_node_tag o (bytes "!<" ++ uri ++ bytes ">" ++ rest) st = Err e.
Proof. exact verbatim_rejected. Qed.
Print Assumptions C39_verbatim_refuted.
Example C39_uri : spelled true (bytes "tag:yaml.org,2002:str") (bytes "tag:yaml.org,2002:str").
Proof.
  vm_compute. repeat (apply spelled_lit; [unfold uri_literal, letter_or_digit; cbn [In]; Lia.lia|]).
  apply spelled_nil.
Qed.
