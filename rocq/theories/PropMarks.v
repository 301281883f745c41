(** C48, C49: the marks of events. *)
From Verif Require Import Parser SpecUtf8 SpecStream SpecMarks SpecPlaced MarkFacts.
Open Scope nat_scope.

(** C48: the marks of the events of a text never decrease, from the start to the end of an
    event and from there to the start of the next one, and lie within the text. *)
Theorem C48_marks_rise :
  forall (t : str) (lazy debug : bool) (n : nat), well_formed t ->
    rising 0 (marks (first_events (run_events peek_source debug n parser0 (snd (events_new (Borrow t) lazy)))))
      (List.length t).
Proof. exact marks_rise. Qed.
Print Assumptions C48_marks_rise.

(** C48: there is a list of tokens, taken from the text, such that each event ends at the
    position of a token that fits it. *)
Theorem C48_marks_of_tokens :
  forall (t : str) (lazy debug : bool), well_formed t ->
    exists s l x, consumes (open t (as_scanner lazy)) s = (l, x) /\
      forall n v, In v (first_events (run_events peek_source debug n parser0 (snd (events_new (Borrow t) lazy)))) ->
        exists e, In e l /\ e_read e = ev_end v /\ fits (ev_data v) (e_wrap e).
Proof. exact marks_fit. Qed.
Print Assumptions C48_marks_of_tokens.

(** C48: the content of a scalar is written in the text and ends at the end mark, except
    for the empty plain scalar that stands for a missing node.  (Positions are wrong behind
    verbatim tags, C30.) *)
Theorem C48_scalars :
  forall (t : str) (debug : bool) (n : nat) (v : event) (d : node) (c : cow) (k : scalar_style),
    well_formed t -> no_verbatim_tag t ->
    In v (first_events (run_events peek_source debug n parser0 (snd (events_new (Borrow t) false)))) ->
    ev_data v = EvScalar d (Eager c k) ->
    c = Borrowed [] /\ k = Plain \/
    exists s p col, p <= ev_end v /\ in_column t p col /\
      written t s p col (mkEntry (Tok (TScalar c k)) (ev_end v)).
Proof. exact scalars_stand. Qed.
Print Assumptions C48_scalars.

(** C49, refuted: the range of an event does not contain its text, not even approximately:
    the range of a scalar without properties is empty, *)
Theorem C49_range_refuted :
  exists (t : str) (v : event) (d : node), t <> [] /\
    In v (first_events (run_events peek_source true 5 parser0 (snd (events_new (Borrow t) false)))) /\
    ev_data v = EvScalar d (Eager (Borrowed t) Plain) /\
    ev_start v = List.length t /\ ev_end v = List.length t.
Proof.
  exists (bytes "abc"), (mkEvent 3 3 (EvScalar (mkNode None None Root) (Eager (Borrowed (bytes "abc")) Plain))), (mkNode None None Root).
  split; [discriminate|]. split; [vm_compute; auto|]. auto.
Qed.
Print Assumptions C49_range_refuted.

(** and that of a node with two properties begins behind both. *)
Theorem C49_properties_refuted :
  exists (v : event) (d : node), let t := bytes "&a !t x" in
    In v (first_events (run_events peek_source true 5 parser0 (snd (events_new (Borrow t) false)))) /\
    ev_data v = EvScalar d (Eager (Borrowed (bytes "x")) Plain) /\
    n_anchor d = Some (Borrowed (bytes "a")) /\ n_tag d = Some (Borrowed (bytes "!"), Borrowed (bytes "t")) /\
    skipn (ev_start v) t = bytes " x".
Proof.
  set (d := mkNode (Some (Borrowed (bytes "a"))) (Some (Borrowed (bytes "!"), Borrowed (bytes "t"))) Root).
  exists (mkEvent 5 7 (EvScalar d (Eager (Borrowed (bytes "x")) Plain))), d. split; [vm_compute; auto 8|].
  split; [reflexivity|]. split; [reflexivity|]. split; reflexivity.
Qed.
Print Assumptions C49_properties_refuted.

(** A document with directives, a sequence with properties, an empty key and a quoted
    scalar: the start and end marks. *)
Definition mark_sample : str := bytes "%YAML 1.1" ++ [10%N] ++ bytes "--- &a !b [b, ? , 'c']".
Example C48_example :
  (forallb (fun b => (b <? 128)%N) mark_sample = true) /\ no_verbatim_tag mark_sample /\
  marks (first_events (run_events peek_source true 20 parser0 (snd (events_new (Borrow mark_sample) false)))) =
    [0; 0; 9; 13; 19; 21; 22; 22; 25; 25; 27; 27; 27; 27; 27; 27; 31; 31; 32; 32; 32; 32; 32; 32].
Proof.
  split; [reflexivity|]. split; [|vm_compute; reflexivity].
  intros a b E. assert (I : In 60%N mark_sample) by (rewrite E; apply in_or_app; right; vm_compute; auto).
  revert I. vm_compute. intuition discriminate.
Qed.
