(** Specification for streams with undefined tags: what a stream reads like if every
    event lost to an undefined tag is put back. *)
From Verif Require Export SpecGrammar.

(** [repaired d xs w]: [w] are the events at the front of the results [xs], where an
    [UndefinedTag] error stands for one tagged event whose handle the directives in
    force do not define.  [d] are the directives in force at the front of [xs].  The
    events end where the results do or at the first other answer. *)
Inductive repaired : directives -> list (pres (option event)) -> list event_data -> Prop :=
| repaired_nil : forall d, repaired d [] []
| repaired_event : forall d e xs w,
    repaired (active d [ev_data e]) xs w -> repaired d (Ok (Some e) :: xs) (ev_data e :: w)
| repaired_lost : forall d lost handle suffix xs w,
    event_tag lost = Some (handle, suffix) ->
    tag_get (d_tags d) (cow_str handle) = None ->
    repaired d xs w -> repaired d (Err UndefinedTag :: xs) (lost :: w)
| repaired_stop : forall d x xs,
    (forall e, x <> Ok (Some e)) -> x <> Err UndefinedTag -> repaired d (x :: xs) [].

(** Two answers to the same call under different directives: equal, or one is a
    tagged event and the other the complaint that its handle is not defined. *)
Definition same_but_tag (d1 d2 : directives) (x1 x2 : pres (option event)) : Prop :=
  x1 = x2 \/
  exists e handle suffix, event_tag (ev_data e) = Some (handle, suffix) /\
    let answer d := match tag_get (d_tags d) (cow_str handle) with
                    | Some _ => Ok (Some e)
                    | None => Err UndefinedTag
                    end in
    x1 = answer d1 /\ x2 = answer d2.
