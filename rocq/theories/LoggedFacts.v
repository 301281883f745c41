(** Errors of a source reach the consumer. *)
From Verif Require Export SpecLogged.

Section Logged.
  Variable R : Type.
  Variable T : token_source R.
  Notation W := (R * list reader_error)%type.
  Notation L := (logged T).

  (** The same method over the source and over the watched source. *)
  Definition follows {A} (m : P R A) (m' : P W A) : Prop :=
    forall p r log, let '(p1, r1, x) := m p r in
      m' p (r, log) = (p1, (r1, match x with
                                | Err e => log ++ match e with
                                                  | ParserScan e => [RScan e]
                                                  | ParserUtf8 => [RUtf8]
                                                  | ParserIo => [RIo]
                                                  | _ => []
                                                  end
                                | _ => log
                                end), x).

  Lemma f_ret {A} (a : A) : follows (pret R a) (pret W a).
  Proof. intros p r log. reflexivity. Qed.
  Lemma f_fail {A} (x : pres A) :
    match x with Err (ParserScan _ | ParserUtf8 | ParserIo) => False | _ => True end ->
    follows (pfail R x) (pfail W x).
  Proof.
    intros H p r log. unfold pfail. destruct x as [a|[]| |]; try destruct H; rewrite ?app_nil_r; reflexivity.
  Qed.
  Lemma f_upd f : follows (pupd R f) (pupd W f).
  Proof. intros p r log. reflexivity. Qed.
  Lemma f_bind {A B} (m : P R A) m' (k : A -> P R B) k' :
    follows m m' -> (forall a, follows (k a) (k' a)) -> follows (pbind R m k) (pbind W m' k').
  Proof.
    intros M K p r log. unfold pbind. specialize (M p r log).
    destruct (m p r) as [[p1 r1] x]. rewrite M. destruct x as [a|e| |]; try reflexivity.
    exact (K a p1 r1 log).
  Qed.
  Lemma f_get {A} (f : parser -> A) :
    follows (fun p r => (p, r, Ok (f p))) (fun p r => (p, r, Ok (f p))).
  Proof. intros p r log. reflexivity. Qed.
  Lemma f_look : follows (peek_opt R T) (peek_opt W L).
  Proof.
    intros p r log. unfold peek_opt. cbn. destruct (ts_look T r) as [r1 [x|[]| |]]; cbn;
      rewrite ?app_nil_r; reflexivity.
  Qed.
  Lemma f_take : follows (fun p r => let (r', x) := ts_pop T r in (p, r', map_err parse_error_of_reader x))
                         (fun p r => let (r', x) := ts_pop L r in (p, r', map_err parse_error_of_reader x)).
  Proof.
    intros p r log. cbn. destruct (ts_pop T r) as [r1 [x|[]| |]]; cbn;
      rewrite ?app_nil_r; reflexivity.
  Qed.
  Lemma f_budget : follows (budget R T) (budget W L).
  Proof. intros p r log. reflexivity. Qed.
  Lemma f_checked s e n c mk : follows (checked R s e n c mk) (checked W s e n c mk).
  Proof.
    intros p r log. unfold checked, validate_tag. destruct (n_tag n) as [[h v]|]; [|reflexivity].
    destruct (c && _); [reflexivity|]. destruct (tag_get _ _); [reflexivity|].
    rewrite app_nil_r. reflexivity.
  Qed.

  Ltac fol := repeat (cbv beta zeta; match goal with
    | |- follows (pret _ _) _ => apply f_ret
    | |- follows (pfail _ _) _ => apply f_fail; exact I
    | |- follows (pupd _ _) _ => apply f_upd
    | |- follows (checked _ _ _ _ _ _) _ => apply f_checked
    | |- follows (peek_opt _ _) _ => apply f_look
    | |- follows (budget _ _) _ => apply f_budget
    | |- follows (pbind _ _ _) _ => apply f_bind; [|intros ?]
    | |- follows (match ?x with _ => _ end) _ => destruct x
    | H : _ |- _ => solve [apply H]
    end).
  Lemma f_peek : follows (peek R T) (peek W L).
  Proof. unfold peek. fol. Qed.
  Lemma f_pop : follows (pop R T) (pop W L).
  Proof. pose proof f_take. unfold pop. fol. Qed.
  Lemma f_consume : follows (consume R T) (consume W L).
  Proof. pose proof f_pop. unfold consume. fol. Qed.
  Lemma f_consume_scalar : follows (consume_scalar R T) (consume_scalar W L).
  Proof. pose proof f_pop. unfold consume_scalar. fol. Qed.
  Lemma f_skip f : follows (skip_document_ends R T f) (skip_document_ends W L f).
  Proof. pose proof f_pop. pose proof f_peek. induction f; cbn [skip_document_ends]; fol. Qed.
  Lemma f_directives f : forall m seen d, follows (scan_directives R T f m seen d) (scan_directives W L f m seen d).
  Proof. pose proof f_consume. pose proof f_peek. induction f as [|f IH]; intros; cbn [scan_directives]; fol. Qed.
  Lemma f_document_directives : follows (scan_document_directives R T) (scan_document_directives W L).
  Proof. pose proof f_peek. pose proof f_directives. unfold scan_document_directives. fol. Qed.
  Lemma f_anchor : follows (Parser.fetch_anchor R T) (Parser.fetch_anchor W L).
  Proof. pose proof f_consume. unfold Parser.fetch_anchor. fol. Qed.
  Lemma f_tag : follows (Parser.fetch_tag R T) (Parser.fetch_tag W L).
  Proof. pose proof f_consume. unfold Parser.fetch_tag. fol. Qed.
  Lemma f_properties s t : follows (properties R T s t) (properties W L s t).
  Proof. pose proof f_anchor. pose proof f_tag. unfold properties. fol. Qed.
  Lemma f_node b k : follows (parse_node R T b k) (parse_node W L b k).
  Proof.
    pose proof f_peek. pose proof f_consume. pose proof f_consume_scalar. pose proof f_properties.
    unfold parse_node, node_content, node_variant, node_empty, deliver. fol.
  Qed.
  Lemma f_transition debug : follows (state_transition R T debug) (state_transition W L debug).
  Proof.
    pose proof f_peek. pose proof f_consume. pose proof f_pop. pose proof f_document_directives.
    pose proof f_node. pose proof f_skip.
    apply f_bind; [apply (f_get ps_top)|]. intros s.
    destruct s; try apply f_node;
    unfold stream_start, explicit_document_content, document_end, document_start, block_sequence_entry, block_mapping_key, block_mapping_value,
      flow_sequence_entry, flow_sequence_entry_mapping_key, flow_sequence_entry_mapping_value, flow_sequence_entry_mapping_end,
      flow_mapping_key, flow_mapping_value, stream_end, fetch_end, empty_scalar, deliver, activate, debug_assert;
    fol.
    all: apply (f_get ps_done).
  Qed.
  Lemma f_loop debug f : follows (event_loop R T debug f) (event_loop W L debug f).
  Proof.
    induction f as [|f IH]; intros p r log; cbn [event_loop]; destruct (ps_done p); try reflexivity.
    pose proof (f_transition debug p r log) as K. destruct (state_transition R T debug p r) as [[p1 r1] x].
    rewrite K. destruct x as [[e|]|e| |]; try reflexivity. apply IH.
  Qed.

  Lemma watched debug n : forall p r log,
    let '((r', log'), xs) := run_watched L debug n p (r, log) in
    xs = run_events T debug n p r /\
    map parse_error_of_reader log' = map parse_error_of_reader log ++ read_errors xs.
  Proof.
    induction n as [|n IH]; intros p r log; cbn [run_watched run_events].
    - rewrite app_nil_r. auto.
    - pose proof (f_loop debug 3 p r log) as K. fold (next_event T debug p r) in K.
      fold (next_event L debug p (r, log)) in K.
      destruct (next_event T debug p r) as [[p1 r1] x]. rewrite K.
      match goal with |- context [run_watched L debug n p1 (r1, ?l)] => specialize (IH p1 r1 l) end.
      destruct (run_watched L debug n p1 _) as [[r' log'] xs]. destruct IH as [-> E].
      split; [reflexivity|]. rewrite E. destruct x as [[e|]|[]| |]; cbn; rewrite ?map_app, <- ?app_assoc; reflexivity.
  Qed.

  Lemma no_error_swallowed debug n (r : R) :
    let '((_, log), results) := run_watched L debug n parser0 (r, []) in
    results = run_events T debug n parser0 r /\
    read_errors results = map parse_error_of_reader log.
  Proof.
    pose proof (watched debug n parser0 r []) as K. destruct (run_watched L debug n parser0 (r, [])) as [[r' log] xs].
    destruct K as [A B]. auto.
  Qed.
End Logged.
