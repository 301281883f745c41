(** The parser reads no more than one token ahead. *)
From Verif Require Export SpecNear.
From Verif Require EventFuel.
From Coq Require Import Lia.
Open Scope nat_scope.

Section Near.
  Variable y : rres unit.
  Notation M := (P tape).
  Notation S' := tape_source.

  Definition near {A} (m m' : M A) : Prop :=
    forall p l, let '(p1, t1, x) := m p (l, y) in
      x = Fuel \/
      exists c, snd t1 = y /\ l = c ++ fst t1 /\
        forall t', alike t1 t' -> m' p (c ++ fst t', snd t') = (p1, t', x).

  Lemma alike_app c t t' : alike t t' -> alike (c ++ fst t, snd t) (c ++ fst t', snd t').
  Proof.
    unfold alike. destruct c as [|a c]; cbn; [|eauto].
    destruct t as [[|u l] z], t' as [l' z']; cbn; auto.
  Qed.

  Lemma n_still {A} (x : pres A) f (m' : M A) :
    (forall p t, m' p t = (f p, t, x)) -> forall m, (forall p t, m p t = (f p, t, x)) -> near m m'.
  Proof.
    intros E' m E p l. rewrite E. right. exists []. repeat split.
    intros [l' z'] _. apply E'.
  Qed.
  Lemma n_ret {A} (v : A) : near (pret tape v) (pret tape v).
  Proof. apply (n_still (Ok v) (fun p => p)); reflexivity. Qed.
  Lemma n_fail {A} (x : pres A) : near (pfail tape x) (pfail tape x).
  Proof. apply (n_still x (fun p => p)); reflexivity. Qed.
  Lemma n_upd f : near (pupd tape f) (pupd tape f).
  Proof. apply (n_still (Ok tt) f); reflexivity. Qed.
  Lemma n_get {A} (f : parser -> A) : near (fun p r => (p, r, Ok (f p))) (fun p r => (p, r, Ok (f p))).
  Proof. intros p l. right. exists []. repeat split. intros [l' z'] _. reflexivity. Qed.
  Lemma n_checked s z n c mk : near (checked tape s z n c mk) (checked tape s z n c mk).
  Proof.
    intros p l. unfold checked. destruct (validate_tag _ n c); right; exists [];
      repeat split; intros [l' z'] _; reflexivity.
  Qed.
  Lemma n_look : near (peek_opt tape S') (peek_opt tape S').
  Proof.
    intros p l. right. exists []. repeat split. cbn. intros [l' z'] K. unfold alike in K. cbn in K.
    destruct l as [|t l]; [injection K as -> ->; reflexivity|]. destruct K as [l2 ->]. reflexivity.
  Qed.
  Lemma n_take : near (fun p r => let (r', x) := ts_pop S' r in (p, r', map_err parse_error_of_reader x))
                      (fun p r => let (r', x) := ts_pop S' r in (p, r', map_err parse_error_of_reader x)).
  Proof.
    intros p l. cbn. right. destruct l as [|t l]; cbn.
    - exists []. repeat split. intros t' K. unfold alike in K. cbn in K. subst t'. reflexivity.
    - exists [t]. repeat split. intros [l' z'] _. reflexivity.
  Qed.
  Lemma n_bind {A B} (m m' : M A) (k k' : A -> M B) :
    near m m' -> (forall v, near (k v) (k' v)) -> near (pbind tape m k) (pbind tape m' k').
  Proof.
    intros H K p l. unfold pbind. specialize (H p l). destruct (m p (l, y)) as [[p1 [l1 y1]] x].
    destruct H as [->|(c & Hy & Hl & E)]; [left; reflexivity|]. cbn in Hy, Hl. subst y1.
    destruct x as [v|z| |];
      try (right; exists c; repeat split; [exact Hl|]; intros t' Ht; rewrite (E t' Ht); reflexivity).
    specialize (K v p1 l1). destruct (k v p1 (l1, y)) as [[p2 [l2 y2]] w].
    destruct K as [->|(c2 & Hy2 & Hl2 & E2)]; [left; reflexivity|]. cbn in Hy2, Hl2. subst y2.
    right. exists (c ++ c2). cbn [fst snd]. repeat split; [subst; rewrite app_assoc; reflexivity|].
    intros t' Ht. pose proof (alike_app c2 _ _ Ht) as Ht2. cbn [fst snd] in Ht2. rewrite <- Hl2 in Ht2.
    pose proof (E _ Ht2) as E1. cbn [fst snd] in E1. rewrite app_assoc in E1. rewrite E1. apply E2, Ht.
  Qed.

  (** Loops: the fuel has to exceed the tokens used. *)
  Definition nearb {A} (m : M A) (m' : nat -> M A) : Prop :=
    forall p l, let '(p1, t1, x) := m p (l, y) in
      x = Fuel \/
      exists c, snd t1 = y /\ l = c ++ fst t1 /\
        forall t' f', alike t1 t' -> List.length c < f' -> m' f' p (c ++ fst t', snd t') = (p1, t', x).
  Lemma n_budget {A} (k : nat -> M A) :
    (forall n, nearb (k n) k) ->
    near (pbind tape (budget tape S') k) (pbind tape (budget tape S') k).
  Proof.
    intros K p l. unfold pbind, budget. cbn [ts_budget tape_source fst].
    specialize (K (S (List.length l)) p l). destruct (k _ p (l, y)) as [[p1 t1] x].
    destruct K as [K|(c & Hy & Hl & E)]; [left; exact K|]. right. exists c. repeat split; [exact Hy|exact Hl|].
    intros t' Ht. apply E; [exact Ht|]. rewrite app_length. lia.
  Qed.
  Lemma nb_then {A B} (m : M A) m' (k : A -> M B) :
    nearb m m' -> (forall v, near (k v) (k v)) -> nearb (pbind tape m k) (fun n => pbind tape (m' n) k).
  Proof.
    intros H K p l. unfold pbind. specialize (H p l). destruct (m p (l, y)) as [[p1 [l1 y1]] x].
    destruct H as [->|(c & Hy & Hl & E)]; [left; reflexivity|]. cbn in Hy, Hl. subst y1.
    destruct x as [v|z| |];
      try (right; exists c; repeat split; [exact Hl|]; intros t' f' Ht Hf; rewrite (E t' f' Ht Hf); reflexivity).
    specialize (K v p1 l1). destruct (k v p1 (l1, y)) as [[p2 [l2 y2]] w].
    destruct K as [->|(c2 & Hy2 & Hl2 & E2)]; [left; reflexivity|]. cbn in Hy2, Hl2. subst y2.
    right. exists (c ++ c2). cbn [fst snd]. repeat split; [subst; rewrite app_assoc; reflexivity|].
    intros t' f' Ht Hf. rewrite app_length in Hf.
    pose proof (alike_app c2 _ _ Ht) as Ht2. cbn [fst snd] in Ht2. rewrite <- Hl2 in Ht2.
    assert (E1 := E _ f' Ht2 ltac:(lia)). cbn [fst snd] in E1. rewrite app_assoc in E1. rewrite E1. apply E2, Ht.
  Qed.

  (** One step of a loop that has used a token. *)
  Lemma nb_token {A} (m : M A) m' (f : M A) (f' : nat -> M A) t :
    nearb m m' ->
    (forall p l, f p (t :: l, y) = m p (l, y)) ->
    (forall p l z n, f' (S n) p (t :: l, z) = m' n p (l, z)) ->
    forall p l, let '(p1, t1, x) := f p (t :: l, y) in
      x = Fuel \/
      exists c, snd t1 = y /\ t :: l = c ++ fst t1 /\
        forall t' n, alike t1 t' -> List.length c < n -> f' n p (c ++ fst t', snd t') = (p1, t', x).
  Proof.
    intros H E E' p l. rewrite E. specialize (H p l). destruct (m p (l, y)) as [[p1 t1] x].
    destruct H as [->|(c & Hy & Hl & K)]; [left; reflexivity|]. right. exists (t :: c).
    repeat split; [exact Hy|cbn; congruence|]. intros t' [|n] Ht Hn; [cbn in Hn; lia|].
    cbn [app]. rewrite E'. apply K; [exact Ht|cbn in Hn; lia].
  Qed.
  Ltac stay := right; exists []; repeat split; intros [l' z'] [|n'] K Hn; [cbn in Hn; lia|];
    unfold alike in K; cbn in K; first [injection K as -> ->|destruct K as [? ->]];
    cbn; repeat match goal with H : e_marker _ = _ |- _ => rewrite ?H; clear H end; reflexivity.
  Lemma nb_skip f : nearb (skip_document_ends tape S' f) (skip_document_ends tape S').
  Proof.
    induction f as [|f IH]; [intros p l; left; reflexivity|].
    intros p [|t l].
    - unfold skip_document_ends, pbind, peek, peek_opt, pbind, tape_next. cbn.
      destruct y as [[]|z| |]; cbn; try stay.
    - destruct (e_marker t) eqn:Mk.
      all: try (cbn; rewrite Mk; cbn; stay).
      apply (nb_token _ _ (skip_document_ends tape S' (S f)) (skip_document_ends tape S') t IH); intros;
        cbn; rewrite Mk; reflexivity.
  Qed.
  Lemma directives_cons f e seen d p t l z :
    scan_directives tape S' (S f) e seen d p (t :: l, z) =
    match e_marker t with
    | MVersionDirective =>
        if seen then (p, (t :: l, z), Err DuplicateVersion)
        else match e_wrap t with
             | Tok (TVersionDirective a b) =>
                 scan_directives tape S' f (e_read t) true (mkDirs (a, b) (d_tags d)) p (l, z)
             | _ => (p, (l, z), Panic)
             end
    | MTagDirective =>
        match e_wrap t with
        | Tok (TTagDirective h x) =>
            match tag_get (d_tags d) (cow_str h) with
            | Some _ => (p, (l, z), Err DuplicateTagDirective)
            | None => scan_directives tape S' f (e_read t) seen (mkDirs (d_version d) (tag_insert (d_tags d) h x)) p (l, z)
            end
        | _ => (p, (l, z), Panic)
        end
    | _ => (p, (t :: l, z), Ok (e, d))
    end.
  Proof.
    cbn [scan_directives]. unfold pbind at 1, peek at 1, peek_opt, pbind at 1. cbn [ts_look tape_source tape_next fst map_err pret].
    destruct (e_marker t); try reflexivity; [destruct seen; [reflexivity|]|];
      unfold pbind at 1, consume, pop, pbind at 1; cbn; destruct (e_wrap t) as [[]|]; try reflexivity.
    cbn. destruct (tag_get _ _); reflexivity.
  Qed.
  Lemma directives_nil f e seen d p : scan_directives tape S' (S f) e seen d p ([], y) =
    (p, ([], y), match y with Ok _ => Err ParserEOF | Err x => Err (parse_error_of_reader x) | Panic => Panic | Fuel => Fuel end).
  Proof. cbn. destruct y; reflexivity. Qed.
  Ltac here := right; exists []; repeat split; intros [l' z'] [|n'] K Hn; [cbn in Hn; lia|];
    unfold alike in K; cbn in K; destruct K as [? ->]; cbn [app fst snd]; rewrite directives_cons.
  Ltac used t := right; exists [t]; repeat split; intros [l' z'] [|n'] K Hn; [cbn in Hn; lia|];
    cbn [app fst snd]; rewrite directives_cons.
  Lemma nb_directives f : forall e seen d,
    nearb (scan_directives tape S' f e seen d) (fun n => scan_directives tape S' n e seen d).
  Proof.
    induction f as [|f IH]; intros e seen d; [intros p l; left; reflexivity|].
    intros p [|t l].
    - rewrite directives_nil. right. exists []. repeat split. intros t' [|n'] K Hn; [cbn in Hn; lia|].
      unfold alike in K; cbn in K; subst t'. apply directives_nil.
    - destruct (e_marker t) eqn:Mk.
      all: try (rewrite directives_cons, Mk; here; rewrite Mk; reflexivity).
      + destruct seen; [rewrite directives_cons, Mk; here; rewrite Mk; reflexivity|].
        destruct (e_wrap t) as [[]|] eqn:Wr; try (rewrite directives_cons, Mk, Wr; used t; rewrite Mk, Wr; reflexivity).
        apply (nb_token _ _ (scan_directives tape S' (S f) e false d)
                 (fun n => scan_directives tape S' n e false d) t (IH (e_read t) true (mkDirs (major, minor) (d_tags d)))); intros;
          rewrite directives_cons, Mk, Wr; reflexivity.
      + destruct (e_wrap t) as [[]|] eqn:Wr; try (rewrite directives_cons, Mk, Wr; used t; rewrite Mk, Wr; reflexivity).
        destruct (tag_get (d_tags d) (cow_str handle)) eqn:Tg.
        * rewrite directives_cons, Mk, Wr, Tg. used t. rewrite Mk, Wr, Tg. reflexivity.
        * apply (nb_token _ _ (scan_directives tape S' (S f) e seen d)
                 (fun n => scan_directives tape S' n e seen d) t
                 (IH (e_read t) seen (mkDirs (d_version d) (tag_insert (d_tags d) handle prefix)))); intros;
          rewrite directives_cons, Mk, Wr, Tg; reflexivity.
  Qed.

  Ltac go := repeat (cbv beta zeta; match goal with
    | |- near (pret _ _) _ => apply n_ret
    | |- near (pfail _ _) _ => apply n_fail
    | |- near (pupd _ _) _ => apply n_upd
    | |- near (checked _ _ _ _ _ _) _ => apply n_checked
    | |- near (peek_opt _ _) _ => apply n_look
    | |- near (pbind _ (budget _ _) _) _ => apply n_budget; intros ?
    | |- near (pbind _ _ _) _ => apply n_bind; [|intros ?]
    | |- near (match ?x with _ => _ end) _ => destruct x
    | H : _ |- _ => solve [apply H; assumption | apply H]
    end).
  Lemma n_peek : near (peek tape S') (peek tape S').
  Proof. unfold peek. go. Qed.
  Lemma n_pop : near (pop tape S') (pop tape S').
  Proof. pose proof n_take. unfold pop. go. Qed.
  Lemma n_consume : near (consume tape S') (consume tape S').
  Proof. pose proof n_pop. unfold consume. go. Qed.
  Lemma n_consume_scalar : near (consume_scalar tape S') (consume_scalar tape S').
  Proof. pose proof n_pop. unfold consume_scalar. go. Qed.
  Lemma n_document_directives : near (scan_document_directives tape S') (scan_document_directives tape S').
  Proof.
    unfold scan_document_directives. apply n_bind; [apply n_peek|]. intros [s t]. apply n_budget. intros n.
    apply (nb_then (scan_directives tape S' n s false default_directives)
             (fun n => scan_directives tape S' n s false default_directives)
             (fun x => let '(e, d) := x in _)); [apply nb_directives|]. intros [e d]. apply n_ret.
  Qed.
  Lemma n_anchor : near (Parser.fetch_anchor tape S') (Parser.fetch_anchor tape S').
  Proof. pose proof n_consume. unfold Parser.fetch_anchor. go. Qed.
  Lemma n_tag : near (Parser.fetch_tag tape S') (Parser.fetch_tag tape S').
  Proof. pose proof n_consume. unfold Parser.fetch_tag. go. Qed.
  Lemma n_properties s t : near (properties tape S' s t) (properties tape S' s t).
  Proof. pose proof n_anchor. pose proof n_tag. unfold properties. go. Qed.
  Lemma n_node c k : near (parse_node tape S' c k) (parse_node tape S' c k).
  Proof.
    pose proof n_peek. pose proof n_consume. pose proof n_consume_scalar. pose proof n_properties.
    unfold parse_node, node_content, node_variant, node_empty, deliver. go.
  Qed.
  Lemma n_transition debug : near (state_transition tape S' debug) (state_transition tape S' debug).
  Proof.
    pose proof n_peek. pose proof n_consume. pose proof n_pop. pose proof n_document_directives.
    pose proof n_node. pose proof nb_skip.
    apply n_bind; [apply (n_get ps_top)|]. intros s.
    destruct s; try apply n_node;
    unfold stream_start, explicit_document_content, document_end, document_start, block_sequence_entry, block_mapping_key, block_mapping_value,
      flow_sequence_entry, flow_sequence_entry_mapping_key, flow_sequence_entry_mapping_value, flow_sequence_entry_mapping_end,
      flow_mapping_key, flow_mapping_value, stream_end, fetch_end, empty_scalar, deliver, activate, debug_assert;
    go.
    all: apply (n_get ps_done).
  Qed.
  Lemma n_loop debug f : near (event_loop tape S' debug f) (event_loop tape S' debug f).
  Proof.
    induction f as [|f IH]; intros p l; cbn [event_loop]; destruct (ps_done p) eqn:D;
      try (right; exists []; repeat split; intros [l' z'] _; reflexivity).
    { pose proof (n_transition debug p l) as H. destruct (state_transition tape S' debug p (l, y)) as [[p1 [l1 y1]] x].
      destruct H as [->|(c & Hy & Hl & E)]; [left; reflexivity|]. cbn in Hy, Hl. subst y1.
      destruct x as [[v|]|z| |];
        try (right; exists c; repeat split; [exact Hl|]; intros t' Ht; rewrite (E t' Ht); reflexivity).
      specialize (IH p1 l1). destruct (event_loop tape S' debug f p1 (l1, y)) as [[p2 [l2 y2]] w].
      destruct IH as [->|(c2 & Hy2 & Hl2 & E2)]; [left; reflexivity|]. cbn in Hy2, Hl2. subst y2.
      right. exists (c ++ c2). cbn [fst snd]. repeat split; [subst; rewrite app_assoc; reflexivity|].
      intros t' Ht. pose proof (alike_app c2 _ _ Ht) as Ht2. cbn [fst snd] in Ht2. rewrite <- Hl2 in Ht2.
      pose proof (E _ Ht2) as E1. cbn [fst snd] in E1. rewrite app_assoc in E1. rewrite E1. apply E2, Ht. }
  Qed.

  Lemma run_near debug n : forall p l,
    let '(t1, xs) := run_watched S' debug n p (l, y) in
    In Fuel xs \/
    exists c, snd t1 = y /\ l = c ++ fst t1 /\
      forall t', alike t1 t' -> run_watched S' debug n p (c ++ fst t', snd t') = (t', xs).
  Proof.
    induction n as [|n IH]; intros p l; cbn [run_watched].
    - right. exists []. repeat split. intros [l' z'] _. reflexivity.
    - pose proof (n_loop debug 3 p l) as H. fold (next_event S' debug p (l, y)) in H.
      destruct (next_event S' debug p (l, y)) as [[p1 [l1 y1]] x] eqn:EN.
      destruct H as [->|(c & Hy & Hl & E)].
      { destruct (run_watched _ _ _ _ _). left; left; reflexivity. }
      cbn in Hy, Hl. subst y1. specialize (IH p1 l1).
      destruct (run_watched S' debug n p1 (l1, y)) as [[l2 y2] xs].
      destruct IH as [F|(c2 & Hy2 & Hl2 & E2)]; [left; right; exact F|]. cbn in Hy2, Hl2. subst y2.
      right. exists (c ++ c2). cbn [fst snd]. repeat split; [subst; rewrite app_assoc; reflexivity|].
      intros t' Ht. pose proof (alike_app c2 _ _ Ht) as Ht2. cbn [fst snd] in Ht2. rewrite <- Hl2 in Ht2.
      pose proof (E _ Ht2) as E1. cbn [fst snd] in E1. rewrite app_assoc in E1. unfold next_event at 1.
      rewrite E1. rewrite (E2 _ Ht). reflexivity.
  Qed.
End Near.

Lemma watched_run {R} (T : token_source R) debug n : forall p r,
  snd (run_watched T debug n p r) = run_events T debug n p r.
Proof.
  induction n as [|n IH]; intros p r; cbn [run_watched run_events]; [reflexivity|].
  destruct (next_event T debug p r) as [[p1 r1] x]. specialize (IH p1 r1).
  destruct (run_watched T debug n p1 r1). cbn in *. congruence.
Qed.

Lemma one_ahead l y debug n : y <> Fuel ->
  let '(rest, xs) := run_watched tape_source debug n parser0 (l, y) in
  xs = run_events tape_source debug n parser0 (l, y) /\
  exists used, l = used ++ fst rest /\ snd rest = y /\
    forall rest', alike rest rest' ->
      run_watched tape_source debug n parser0 (used ++ fst rest', snd rest') = (rest', xs).
Proof.
  intros Y. pose proof (run_near y debug n parser0 l) as H.
  pose proof (watched_run tape_source debug n parser0 (l, y)) as W.
  destruct (run_watched tape_source debug n parser0 (l, y)) as [rest xs] eqn:E.
  assert (H' : In Fuel xs \/ exists c, snd rest = y /\ l = c ++ fst rest /\
    forall t', alike rest t' -> run_watched tape_source debug n parser0 (c ++ fst t', snd t') = (t', xs)).
  { clear W. revert H. change (rres unit) with (res reader_error unit). unfold tape in *. rewrite E. auto. }
  cbn in W. subst xs.
  split; [reflexivity|]. destruct H' as [F|(c & A & B & C)].
  - exfalso. revert F. apply EventFuel.run_sure; [apply ParserLang.shape0|exact Y].
  - exists c. auto.
Qed.
