(** Facts about streams with undefined tags. *)
From Verif Require Export SpecRepair TagCheck.
From Verif Require BaseFacts.

Section Repair.
  Variable R : Type.
  Variable T : token_source R.
  Variable debug : bool.

  Lemma lang_dirs D p w : lang (set_dirs D p) w <-> lang p w.
  Proof. reflexivity. Qed.
  Lemma shape_dirs D p : shape (set_dirs D p) <-> shape p.
  Proof. reflexivity. Qed.
  Lemma dirs_self p : set_dirs (ps_dirs p) p = p.
  Proof. destruct p; reflexivity. Qed.

  (** A call that complains about a tag leaves the parser where the event would. *)
  Lemma undefined_step p r p' r' :
    shape p -> next_event T debug p r = (p', r', Err UndefinedTag) ->
    exists e h s, event_tag (ev_data e) = Some (h, s) /\
      tag_get (d_tags (ps_dirs p)) (cow_str h) = None /\
      forall w, lang p' w -> lang p (ev_data e :: w).
  Proof.
    intros Hp E. unfold next_event in E.
    destruct (uniform_loop R T debug 3 p r)
      as [(p1 & r1 & x & V & F)|[(p1 & r1 & e & V & F)|(p1 & r1 & e & h & s & V & F)]].
    - pose proof (F (ps_dirs p)) as G. rewrite dirs_self, E in G. destruct V as [V _].
      inversion G; congruence.
    - pose proof (F (ps_dirs p)) as G. rewrite dirs_self, E in G. inversion G.
    - pose proof (F (ps_dirs p)) as G. rewrite dirs_self, E in G.
      exists e, h, s. split; [exact V|].
      destruct (tag_get (d_tags (ps_dirs p)) (cow_str h)) eqn:N; inversion G; subst.
      split; [reflexivity|]. intros w Hw.
      set (D := mkDirs (d_version default_directives) [(h, h)]).
      pose proof (F D) as K.
      assert (ND : tag_get (d_tags D) (cow_str h) <> None).
      { unfold D; cbn. rewrite BaseFacts.str_eqb_refl. discriminate. }
      destruct (tag_get (d_tags D) (cow_str h)); [|destruct (ND eq_refl)].
      assert (Hp' : shape (set_dirs D p)) by exact Hp.
      destruct (next_event_ok R T debug (set_dirs D p) Hp' _ _ _ _ K) as [[_ L] _].
      exact (L w Hw).
  Qed.

  Lemma run_repaired n p r d :
    shape p ->
    (forall h, tag_get (d_tags (ps_dirs p)) h = None <-> tag_get (d_tags d) h = None) ->
    let xs := run_events T debug n p r in
    exists w rest, repaired d xs w /\ lang p (w ++ rest) /\
      (nth_error xs (List.length w) = Some (Ok None) -> rest = []).
  Proof.
    revert p r d; induction n as [|n IH]; intros p r d Hp Hd; cbn [run_events].
    - destruct (shape_lang p Hp) as [w Hw]. exists [], w. repeat split; [constructor|exact Hw|discriminate].
    - destruct (next_event T debug p r) as [[p' r'] x] eqn:E.
      destruct (next_event_ok R T debug p Hp _ _ _ _ E) as [[Hp' Hx] N].
      destruct (next_event_effect R T debug p _ _ _ _ E) as (H1 & _).
      cbv zeta. unfold effect_ok in H1.
      assert (ST : (forall e, x <> Ok (Some e)) -> x <> Err UndefinedTag ->
                exists w rest, repaired d (x :: run_events T debug n p' r') w /\
                  lang p (w ++ rest) /\
                  (nth_error (x :: run_events T debug n p' r') (List.length w) = Some (Ok None)
                   -> rest = [])).
      { intros A B. destruct x as [[e|]|e| |]; try (destruct (A e eq_refl)).
        1: exists [], []; repeat split; [constructor; assumption|].
        1: apply Hx; unfold lang; rewrite N; reflexivity.
        all: destruct (shape_lang p Hp) as [w Hw]; exists [], w;
          repeat split; [constructor; assumption|exact Hw|discriminate]. }
      destruct x as [[e|]|e| |]; try (apply ST; congruence).
      + destruct (IH p' r' (active d [ev_data e]) Hp') as (w & rest & Hw & Hl & Hr).
        { intros h. unfold active; cbn [fold_left].
          destruct (ev_data e); destruct H1 as [H1 _]; rewrite H1; try apply Hd.
          cbn [d_tags]. apply tag_get_owned. }
        exists (ev_data e :: w), rest. repeat split; [constructor; exact Hw|apply Hx, Hl|exact Hr].
      + assert (U : e = UndefinedTag \/ e <> UndefinedTag)
          by (destruct e; first [left; reflexivity|right; discriminate]).
        destruct U as [->|U]; [|apply ST; congruence].
        destruct (undefined_step p r p' r' Hp E) as (ev & h & s & Ht & Hn & L).
        destruct H1 as [H1 _].
        destruct (IH p' r' d Hp') as (w & rest & Hw & Hl & Hr).
        { rewrite H1. exact Hd. }
        exists (ev_data ev :: w), rest. repeat split; [|apply L, Hl|exact Hr].
        eapply repaired_lost; [exact Ht|apply Hd, Hn|exact Hw].
  Qed.

  Lemma repair n (r : R) :
    let xs := run_events T debug n parser0 r in
    exists w rest, repaired default_directives xs w /\ wf_stream (w ++ rest) /\
      (In EvStreamEnd w -> rest = []) /\
      (nth_error xs (List.length w) = Some (Ok None) -> rest = []).
  Proof.
    cbv zeta.
    destruct (run_repaired n parser0 r default_directives shape0
                (fun h => conj (fun x => x) (fun x => x))) as (w & rest & A & B & C).
    exists w, rest. split; [exact A|]. split; [exact B|]. split; [|exact C].
    apply stream_end_last, B.
  Qed.

  (** Calls under different directives. *)
  Lemma same_run D1 D2 n p r :
    Forall2 (same_but_tag D1 D2) (run_events T debug n (set_dirs D1 p) r)
            (run_events T debug n (set_dirs D2 p) r).
  Proof.
    revert p r; induction n as [|n IH]; intros p r; cbn [run_events]; [constructor|].
    unfold next_event.
    destruct (uniform_loop R T debug 3 p r)
      as [(p1 & r1 & x & V & F)|[(p1 & r1 & e & V & F)|(p1 & r1 & e & h & s & V & F)]];
      rewrite !F.
    - constructor; [left; reflexivity|apply IH].
    - constructor; [left; reflexivity|].
      generalize (run_events T debug n p1 r1) as l.
      induction l; constructor; [left; reflexivity|assumption].
    - constructor; [right; exists e, h, s; split; [exact V|split; reflexivity]|apply IH].
  Qed.
End Repair.
