(** Answers do not depend on tokens that come later. *)
From Verif Require Export SpecTape SpecGrammar.
From Verif Require EventFuel.

Section Soon.
  Variable e : reader_error.
  Variable b : list entry.
  Variable y : rres unit.
  Notation M := (P tape).
  Notation S := tape_source.

  (** The same method over a tape that breaks off and over one that goes on. *)
  Definition soon {A} (m m' : M A) : Prop :=
    forall p a, let '(p1, t1, x) := m p (a, Err e) in
      x = Err (parse_error_of_reader e) \/ x = Fuel \/
      exists a1, t1 = (a1, Err e) /\ m' p (a ++ b, y) = (p1, (a1 ++ b, y), x).

  Lemma s_ret {A} (v : A) : soon (pret tape v) (pret tape v).
  Proof. intros p a. right; right. exists a. auto. Qed.
  Lemma s_fail {A} (x : pres A) : soon (pfail tape x) (pfail tape x).
  Proof. intros p a. right; right. exists a. auto. Qed.
  Lemma s_fuel {A} m : soon (pfail tape (Fuel : pres A)) m.
  Proof. intros p a. right; left. reflexivity. Qed.
  Lemma s_upd f : soon (pupd tape f) (pupd tape f).
  Proof. intros p a. right; right. exists a. auto. Qed.
  Lemma s_get {A} (f : parser -> A) : soon (fun p r => (p, r, Ok (f p))) (fun p r => (p, r, Ok (f p))).
  Proof. intros p a. right; right. exists a. auto. Qed.
  Lemma s_bind {A B} (m m' : M A) (k k' : A -> M B) :
    soon m m' -> (forall v, soon (k v) (k' v)) -> soon (pbind tape m k) (pbind tape m' k').
  Proof.
    intros H K p a. unfold pbind. specialize (H p a). destruct (m p (a, Err e)) as [[p1 t1] x].
    destruct H as [->|[->|(a1 & -> & E)]]; [left; reflexivity|right; left; reflexivity|].
    rewrite E. destruct x as [v|z| |].
    - exact (K v p1 a1).
    - right; right; exists a1; auto.
    - right; right; exists a1; auto.
    - right; right; exists a1; auto.
  Qed.
  Lemma s_budget {A} (k k' : nat -> M A) :
    (forall n n', n <= n' -> soon (k n) (k' n')) ->
    soon (pbind tape (budget tape S) k) (pbind tape (budget tape S) k').
  Proof.
    intros K p a. unfold pbind, budget. cbn [ts_budget S fst].
    refine (K _ _ _ p a). rewrite app_length. apply le_n_S, Nat.le_add_r.
  Qed.
  Lemma s_look : soon (peek_opt tape S) (peek_opt tape S).
  Proof.
    intros p [|t a]; unfold peek_opt; cbn; [left; reflexivity|].
    right; right. exists (t :: a). auto.
  Qed.
  Lemma s_take : soon (fun p r => let (r', x) := ts_pop S r in (p, r', map_err parse_error_of_reader x))
                      (fun p r => let (r', x) := ts_pop S r in (p, r', map_err parse_error_of_reader x)).
  Proof. intros p [|t a]; cbn; [left; reflexivity|]. right; right. exists a. auto. Qed.
  Lemma s_checked s z n c mk : soon (checked tape s z n c mk) (checked tape s z n c mk).
  Proof.
    intros p a. unfold checked. destruct (validate_tag _ n c); right; right; exists a; auto.
  Qed.

  Ltac go := repeat (cbv beta zeta; match goal with
    | |- soon (pret _ _) _ => apply s_ret
    | |- soon (pfail _ _) _ => apply s_fail
    | |- soon (pupd _ _) _ => apply s_upd
    | |- soon (checked _ _ _ _ _ _) _ => apply s_checked
    | |- soon (peek_opt _ _) _ => apply s_look
    | |- soon (pbind _ (budget _ _) _) _ => apply s_budget; intros ? ? ?
    | |- soon (pbind _ _ _) _ => apply s_bind; [|intros ?]
    | |- soon (match ?x with _ => _ end) _ => destruct x
    | H : _ |- _ => solve [apply H; assumption | apply H]
    end).
  Lemma s_peek : soon (peek tape S) (peek tape S).
  Proof. unfold peek. go. Qed.
  Lemma s_pop : soon (pop tape S) (pop tape S).
  Proof. pose proof s_take. unfold pop. go. Qed.
  Lemma s_consume : soon (consume tape S) (consume tape S).
  Proof. pose proof s_pop. unfold consume. go. Qed.
  Lemma s_consume_scalar : soon (consume_scalar tape S) (consume_scalar tape S).
  Proof. pose proof s_pop. unfold consume_scalar. go. Qed.
  Lemma s_skip f : forall f', f <= f' -> soon (skip_document_ends tape S f) (skip_document_ends tape S f').
  Proof.
    pose proof s_pop. pose proof s_peek.
    induction f as [|f IH]; intros f' Hf; [apply s_fuel|]. destruct f' as [|f']; [inversion Hf|].
    apply le_S_n in Hf. specialize (IH f' Hf). cbn [skip_document_ends]. go.
  Qed.
  Lemma s_directives f : forall f' m seen d, f <= f' -> soon (scan_directives tape S f m seen d) (scan_directives tape S f' m seen d).
  Proof.
    pose proof s_consume. pose proof s_peek.
    induction f as [|f IH]; intros f' m seen d Hf; [apply s_fuel|]. destruct f' as [|f']; [inversion Hf|].
    apply le_S_n in Hf. cbn [scan_directives]. go.
  Qed.
  Lemma s_document_directives : soon (scan_document_directives tape S) (scan_document_directives tape S).
  Proof. pose proof s_peek. pose proof s_directives. unfold scan_document_directives. go. Qed.
  Lemma s_anchor : soon (Parser.fetch_anchor tape S) (Parser.fetch_anchor tape S).
  Proof. pose proof s_consume. unfold Parser.fetch_anchor. go. Qed.
  Lemma s_tag : soon (Parser.fetch_tag tape S) (Parser.fetch_tag tape S).
  Proof. pose proof s_consume. unfold Parser.fetch_tag. go. Qed.
  Lemma s_properties s t : soon (properties tape S s t) (properties tape S s t).
  Proof. pose proof s_anchor. pose proof s_tag. unfold properties. go. Qed.
  Lemma s_node c k : soon (parse_node tape S c k) (parse_node tape S c k).
  Proof.
    pose proof s_peek. pose proof s_consume. pose proof s_consume_scalar. pose proof s_properties.
    unfold parse_node, node_content, node_variant, node_empty, deliver. go.
  Qed.
  Lemma s_transition debug : soon (state_transition tape S debug) (state_transition tape S debug).
  Proof.
    pose proof s_peek. pose proof s_consume. pose proof s_pop. pose proof s_document_directives.
    pose proof s_node. pose proof s_skip.
    apply s_bind; [apply (s_get ps_top)|]. intros s.
    destruct s; try apply s_node;
    unfold stream_start, explicit_document_content, document_end, document_start, block_sequence_entry, block_mapping_key, block_mapping_value,
      flow_sequence_entry, flow_sequence_entry_mapping_key, flow_sequence_entry_mapping_value, flow_sequence_entry_mapping_end,
      flow_mapping_key, flow_mapping_value, stream_end, fetch_end, empty_scalar, deliver, activate, debug_assert;
    go.
    all: apply (s_get ps_done).
  Qed.
  Lemma s_loop debug f : soon (event_loop tape S debug f) (event_loop tape S debug f).
  Proof.
    induction f as [|f IH]; intros p a; cbn [event_loop]; destruct (ps_done p);
      try (right; right; exists a; auto; fail).
    pose proof (s_transition debug p a) as K. destruct (state_transition tape S debug p (a, Err e)) as [[p1 t1] x].
    destruct K as [->|[->|(a1 & -> & E)]]; [left; reflexivity|right; left; reflexivity|].
    rewrite E. destruct x as [[v|]|z| |]; try (right; right; exists a1; auto; fail).
    apply IH.
  Qed.

  Lemma run_soon debug n : forall p a,
    Forall (fun x => x <> Err (parse_error_of_reader e) /\ x <> Fuel) (run_events S debug n p (a, Err e)) ->
    run_events S debug n p (a ++ b, y) = run_events S debug n p (a, Err e).
  Proof.
    induction n as [|n IH]; intros p a; cbn [run_events]; [reflexivity|].
    pose proof (s_loop debug 3 p a) as K. fold (next_event S debug p (a, Err e)) in K.
    fold (next_event S debug p (a ++ b, y)) in K.
    destruct (next_event S debug p (a, Err e)) as [[p1 t1] x]. intros F.
    inversion F as [|? ? [F1 F2] F3]; subst.
    destruct K as [K|[K|(a1 & -> & E)]]; [contradiction|contradiction|].
    rewrite E. f_equal. apply IH, F3.
  Qed.

  Lemma delivered_soon debug n : forall p a,
    exists rest, run_events S debug n p (a ++ b, y) =
      map (fun v => Ok (Some v)) (delivered (run_events S debug n p (a, Err e))) ++ rest.
  Proof.
    induction n as [|n IH]; intros p a; cbn [run_events]; [exists []; reflexivity|].
    pose proof (s_loop debug 3 p a) as K. fold (next_event S debug p (a, Err e)) in K.
    fold (next_event S debug p (a ++ b, y)) in K.
    destruct (next_event S debug p (a, Err e)) as [[p1 t1] x].
    destruct x as [[v|]|z| |]; cbn [delivered map app]; try (eexists; reflexivity).
    destruct K as [K|[K|(a1 & -> & E)]]; [discriminate|discriminate|].
    rewrite E. destruct (IH p1 a1) as [rest Hr]. exists rest. rewrite Hr. reflexivity.
  Qed.
End Soon.

Lemma answers_soon e b y debug n a :
  Forall (fun x => x <> Err (parse_error_of_reader e)) (run_events tape_source debug n parser0 (a, Err e)) ->
  run_events tape_source debug n parser0 (a ++ b, y) = run_events tape_source debug n parser0 (a, Err e).
Proof.
  intros F. apply run_soon. rewrite Forall_forall in *. intros x I. split; [apply F, I|].
  intros ->. revert I. apply EventFuel.run_sure; [apply ParserLang.shape0|discriminate].
Qed.
