(** Properties C04-C08, C38, C41, C42: events in terms of tokens. *)
From Verif Require Import SpecCalls TokenLaws.

(** C41: over any list of tokens the iterator delivers the events [evs] and then ends
    exactly when [evs] is the translation of a prefix of the list that is a stream of
    the grammar of [SpecTokens]. *)
Theorem C41_translation_exact :
  forall (debug : bool) (l : list entry) (evs : list event_data),
    (exists n es, map ev_data es = evs /\
       run_events list_source debug n parser0 l
       = map (fun e => Ok (Some e)) es ++ [Ok None]) <->
    (exists rest, t_stream (map e_wrap l) evs rest).
Proof. exact translation_exact. Qed.
Print Assumptions C41_translation_exact.

(** C42: up to the first error the events delivered stand for the tokens read, one
    group of tokens per event, in order, without gap or overlap. *)
Theorem C42_tokens_accounted :
  forall (debug : bool) (n : nat) (l : list entry),
    exists groups rest, map e_wrap l = List.concat groups ++ rest /\
      Forall2 stands_for groups
        (map ev_data (delivered (run_events list_source debug n parser0 l))).
Proof. exact accounted. Qed.
Print Assumptions C42_tokens_accounted.

(** C04, second half: for every source and every parser state, the outcome of a call
    depends on the handles in force exactly like this: if the call delivers a tagged
    node under some directives, it fails with [UndefinedTag] under any directives
    that do not define the handle; and it fails with [UndefinedTag] only if some
    handle is undefined and defining it lets the call deliver the node. *)
Theorem C04_undefined_tag :
  forall (R : Type) (T : token_source R) (debug : bool) (p : parser) (r : R),
    let call D := snd (next_event T debug (set_dirs D p) r) in
    (forall D e h s, call D = Ok (Some e) -> event_tag (ev_data e) = Some (h, s) ->
       forall D', tag_get (d_tags D') (cow_str h) = None -> call D' = Err UndefinedTag) /\
    (forall D, call D = Err UndefinedTag ->
       exists h s, tag_get (d_tags D) (cow_str h) = None /\
         forall D', tag_get (d_tags D') (cow_str h) <> None ->
           exists e, call D' = Ok (Some e) /\ event_tag (ev_data e) = Some (h, s)).
Proof. exact undefined_tag. Qed.
Print Assumptions C04_undefined_tag.

(** C05: the directives of a delivered document start are the defaults plus exactly
    the directive tokens directly in front of the document: the token before them is
    not a directive, and [---] follows them. *)
Theorem C05_directive_scope :
  forall (debug : bool) (n : nat) (l : list entry) (i : nat) (e : event) d implicit,
    nth_error (delivered (run_events list_source debug n parser0 l)) i = Some e ->
    ev_data e = EvDocumentStart d implicit ->
    exists before ds after,
      map e_wrap l = before ++ map directive_token ds ++ after /\
      (forall b t, before = b ++ [t] -> is_directive t = false) /\
      distinct ds /\ d = directives_of ds /\
      (if implicit then ds = [] else exists r, after = Tok TDocumentStart :: r).
Proof. exact document_directives. Qed.
Print Assumptions C05_directive_scope.

(** C06: where a document may start, directives followed by [---] are accepted
    exactly when none repeats an earlier one, and the first that does is reported as
    [DuplicateVersion] or [DuplicateTagDirective]. *)
Theorem C06_duplicate_directives :
  forall (debug bare first : bool) (D : directives) (l : list entry) ds ts,
    map e_wrap l = map directive_token ds ++ Tok TDocumentStart :: ts ->
    let result := snd (next_event list_source debug
                         (mkParser (StDocumentStart bare first) [] D false) l) in
    match first_conflict false default_handles ds with
    | Some err => result = Err err
    | None => distinct ds /\ exists s e,
        result = Ok (Some (mkEvent s e (EvDocumentStart (directives_of ds) false)))
    end.
Proof. exact duplicate_directives. Qed.
Print Assumptions C06_duplicate_directives.

(** C07 is refuted for every prefix: a [%TAG] directive for a default handle is
    always reported as a duplicate, although the documentation of [DEFAULT_TAGS]
    (src/event/types.rs:35-38) says that users may override them. *)
Theorem C07_default_handles_refuted :
  forall (debug bare first : bool) (D : directives) (l : list entry) handle prefix ts,
    In (cow_str handle) [bytes "!"; bytes "!!"] ->
    map e_wrap l = Tok (TTagDirective handle prefix) :: ts ->
    snd (next_event list_source debug
           (mkParser (StDocumentStart bare first) [] D false) l) = Err DuplicateTagDirective.
Proof. exact default_handle_call. Qed.
Print Assumptions C07_default_handles_refuted.

(** C08: every node event carries the anchor written in front of its content, and the
    tag written there, except that [!] is dropped from scalars. *)
Theorem C08_node_tags :
  forall (debug : bool) (n : nat) (l : list entry) (i : nat) (e : event),
    nth_error (delivered (run_events list_source debug n parser0 l)) i = Some e ->
    match ev_data e with
    | EvScalar nd v =>
        exists before s ps content after g,
          map e_wrap l = before ++ s ++ ps ++ content ++ after /\
          forallb structural s = true /\ written ps (n_anchor nd) g /\
          n_tag nd = delivered_tag true g /\
          match content with
          | [] => v = empty_scalar_like
          | [Tok (TScalar t st)] => v = Eager t st
          | [Lazy d] => v = LazyS d
          | _ => False
          end
    | EvSequenceStart nd | EvMappingStart nd =>
        exists before s ps after g, map e_wrap l = before ++ s ++ ps ++ after /\
          forallb structural s = true /\ written ps (n_anchor nd) g /\
          n_tag nd = delivered_tag false g
    | _ => True
    end.
Proof. exact node_tags. Qed.
Print Assumptions C08_node_tags.

(** C38: the document events marked explicit correspond, in order, to the [---] and
    [...] tokens read. *)
Theorem C38_explicit_marks :
  forall (debug : bool) (n : nat) (l : list entry),
    exists read rest, map e_wrap l = read ++ rest /\
      token_marks read
      = explicit_marks (map ev_data (delivered (run_events list_source debug n parser0 l))).
Proof. exact marks_truthful. Qed.
Print Assumptions C38_explicit_marks.

(** ** Concrete cases *)
Definition sample_tokens : list entry :=
  map (fun t => mkEntry (Tok t) 0)
    [TStreamStart; TVersionDirective 1 1; TTagDirective (Borrowed (bytes "!e!")) (Borrowed (bytes "x"));
     TDocumentStart; TBlockMappingStart; TKey; TTag (Borrowed (bytes "!")) (Borrowed []);
     TAnchor (Borrowed (bytes "a")); TScalar (Borrowed (bytes "k")) Plain; TValue;
     TTag (Borrowed (bytes "!e!")) (Borrowed (bytes "t")); TFlowSequenceStart;
     TAlias (Borrowed (bytes "a")); TFlowSequenceEnd; TBlockEnd; TDocumentEnd; TStreamEnd].
Definition sample_directives : list directive :=
  [DVersion 1 1; DTag (Borrowed (bytes "!e!")) (Borrowed (bytes "x"))].

Example sample_translates :
  run_events list_source true 12 parser0 sample_tokens =
  map (fun d => Ok (Some (mkEvent 0 0 d)))
    [EvStreamStart; EvDocumentStart (directives_of sample_directives) false;
     EvMappingStart (mkNode None None Root);
     EvScalar (mkNode (Some (Borrowed (bytes "a"))) None Key) (Eager (Borrowed (bytes "k")) Plain);
     EvSequenceStart (mkNode None (Some (Borrowed (bytes "!e!"), Borrowed (bytes "t"))) Value);
     EvAlias (Borrowed (bytes "a")); EvSequenceEnd; EvMappingEnd; EvDocumentEnd false;
     EvStreamEnd] ++ [Ok None; Ok None].
Proof. vm_compute. reflexivity. Qed.

Example conflicting : first_conflict false default_handles
  (sample_directives ++ [DVersion 1 2; DTag (Borrowed (bytes "!e!")) (Borrowed [])])
  = Some DuplicateVersion.
Proof. vm_compute. reflexivity. Qed.

(** The same from text. *)
Definition results_of (text : string) (n : nat) :=
  let '(p, r) := events_new (Borrow (bytes text)) false in run_events peek_source false n p r.
Example text_duplicate_version :
  nth_error (results_of "%YAML 1.1
%YAML 1.1
--- a
" 3) 1 = Some (Err DuplicateVersion).
Proof. vm_compute. reflexivity. Qed.
Example text_default_handle :
  nth_error (results_of "%TAG !! tag:e:
--- a
" 3) 1 = Some (Err DuplicateTagDirective).
Proof. vm_compute. reflexivity. Qed.
Example text_undefined_tag :
  nth_error (results_of "- !e!x a
" 5) 3 = Some (Err UndefinedTag).
Proof. vm_compute. reflexivity. Qed.
