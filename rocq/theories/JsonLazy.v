(** JSON texts read with deferred scalars. *)
From Verif Require Import SpecJson SpecUtf8 SpecTape SpecShown YamlEvents JsonYaml JsonFacts DeferYaml SpecLazySource LazySourceYaml QuotedFacts SpecOwned SpecContent.
From Coq Require Import Lia.
Open Scope nat_scope.

Definition unblocked (d : deed) : Prop := forall n v k, d = Text n v k -> k <> Literal /\ k <> Folded.
Lemma unblocked_deeds : forall v k, Forall unblocked (deeds k v).
Proof.
  fix IH 1. intros [s|s|l|l] k; cbn [deeds].
  - constructor; [|constructor]. intros ? ? ? E. injection E as _ _ <-. split; discriminate.
  - constructor; [|constructor]. intros ? ? ? E. injection E as _ _ <-. split; discriminate.
  - constructor; [intros ? ? ? E; discriminate|]. apply Forall_app. split; [|constructor; [intros ? ? ? E; discriminate|constructor]].
    induction l as [|v l IHl]; cbn [flat_map]; [constructor|]. apply Forall_app. split; [apply IH|exact IHl].
  - constructor; [intros ? ? ? E; discriminate|]. apply Forall_app. split; [|constructor; [intros ? ? ? E; discriminate|constructor]].
    induction l as [|[n v] l IHl]; cbn [flat_map]; [constructor|]. apply Forall_app. split; [|exact IHl].
    constructor; [intros ? ? ? E; injection E as _ _ <-; split; discriminate|apply IH].
Qed.
Lemma unblocked_document v : Forall unblocked (document v).
Proof.
  constructor; [intros ? ? ? E; discriminate|]. apply Forall_app. split; [apply unblocked_deeds|].
  constructor; [intros ? ? ? E; discriminate|constructor].
Qed.
Lemma shown_exactly ds evs : Forall unblocked ds -> Forall2 shows_lazily ds evs -> map shows_evaluated evs = map Some ds.
Proof.
  intros U F. induction F as [|d ev ds evs (ev' & d' & E1 & E2 & E3) F IH]; [reflexivity|]. inversion U as [|? ? U1 U2]; subst.
  cbn [map]. rewrite IH by exact U2. f_equal. unfold shows_evaluated. rewrite E1, E2. f_equal.
  destruct E3 as [E3|(n & v & x & k & K & _ & D & _)]; [exact E3|]. destruct (U1 _ _ _ D) as [N1 N2]. destruct K; contradiction.
Qed.
Lemma json_lazy_events t v debug : all_ascii t -> no_double t -> plain_json t v ->
  exists es evs,
    run_events peek_source debug (List.length es + 1) parser0 (snd (events_new (Borrow t) true))
      = map (fun x => Ok (Some x)) es ++ [Ok None] /\
    map ev_data es = EvStreamStart :: evs ++ [EvStreamEnd] /\ map shows_evaluated evs = map Some (document v).
Proof.
  intros A D J. destruct (lazy_stream_events t _ debug A D (json_stream t v A J)) as (es & evs & R & M & F).
  exists es, evs. split; [exact R|]. split; [exact M|]. exact (shown_exactly _ _ (unblocked_document v) F).
Qed.
(** Scalars that are not block scalars have nothing to settle. *)
Lemma block_style o b st i fold c k : evaluate_scalar (LazyS (DBlock o b st i fold)) = Ok (c, k) -> k = Literal \/ k = Folded.
Proof.
  unfold evaluate_scalar, eval_deferred. intros E. apply bind_inv in E as (tk & E & X). apply bind_inv in E as ([[tk' n] st'] & E & Y). injection Y as ->.
  unfold scan_block_scalar_eager in E. apply bind_inv in E as ([[[ch ex] bf] lo] & _ & E). apply bind_inv in E as ([[[[ind bf'] lo'] li] bo] & _ & E).
  destruct (if bo then _ else _) as [sta scr]. apply bind_inv in E as (bb & _ & E). apply bind_inv in E as (tx & _ & E).
  injection E as <- _ _. injection X as _ <-. destruct fold; auto.
Qed.
Lemma unsettled e d : shows_evaluated (ev_data (settled_event e)) = Some d -> unblocked d -> settled_event e = e.
Proof.
  destruct e as [a b [| | | | |n [c k|[o t st sg|o t st i bl|o t st i fold]]| | | |]]; try reflexivity.
  cbn [settled_event ev_data ev_start ev_end settled_scalar]. unfold shows_evaluated, evaluated.
  destruct (evaluate_scalar (LazyS (DBlock (no_extend o) t st i fold))) as [[c k]|x| |] eqn:E; try discriminate.
  intros H U. apply block_style in E. exfalso. cbn in H. injection H as <-. destruct (U _ _ _ eq_refl) as [U1 U2]. destruct E; contradiction.
Qed.
Lemma all_unsettled es ds : map shows_evaluated (map ev_data (map settled_event es)) = map Some ds -> Forall unblocked ds -> map settled_event es = es.
Proof.
  revert ds; induction es as [|e es IH]; intros ds E U; [reflexivity|]. destruct ds as [|d ds]; [discriminate|]. inversion U; subst.
  cbn [map] in *. injection E as E1 E2. f_equal; [exact (unsettled e d E1 ltac:(assumption))|exact (IH ds E2 ltac:(assumption))].
Qed.
Lemma json_lazy_source_events t v src debug : all_ascii t -> no_double t -> ~ In 13%N t -> plain_json t v -> SpecOwned.steady src -> bytes_of src = t ->
  exists es evs,
    run_events peek_source debug (List.length es + 1) parser0 (snd (events_new (Own (owned_new src)) true))
      = map (fun x => Ok (Some x)) es ++ [Ok None] /\
    map ev_data es = EvStreamStart :: evs ++ [EvStreamEnd] /\ map shows_evaluated evs = map Some (document v).
Proof.
  intros A D NR J S B. destruct (lazy_source_events t _ src debug A D NR (json_stream t v A J) S B) as (es & evs & R & M & F).
  pose proof (shown_exactly _ _ (unblocked_document v) F) as SH.
  assert (K : map settled_event es = es); [|exists es, evs; rewrite K in M; auto].
  destruct es as [|e0 es]; [discriminate|]. cbn [map] in M. injection M as M0 M.
  destruct (exists_last (l := es)) as (mid & z & ->); [intros ->; destruct evs; discriminate|].
  rewrite !map_app in M. cbn [map] in M. apply app_inj_tail in M as [M1 M2].
  cbn [map]. rewrite map_app. cbn [map]. f_equal; [destruct e0 as [? ? []]; try discriminate; reflexivity|]. f_equal.
  - rewrite <- M1 in SH. exact (all_unsettled _ _ SH (unblocked_document v)).
  - destruct z as [? ? []]; try discriminate; reflexivity.
Qed.

(** A text without carriage returns. *)
Definition json_line : str := bytes "{""k"": [1, ""x\ny""]} ".
Definition line_value : value := JObject [(bytes "k", JArray [JBare (bytes "1"); JString ([120; 10; 121]%N)])].
Lemma line_json : plain_json json_line line_value.
Proof.
  unfold plain_json. refine (el_value False near [] (bytes "{""k"": [1, ""x\ny""]}") line_value (bytes " ") ltac:(white_space) _ ltac:(white_space)).
  refine (va_object False near (bytes """k"": [1, ""x\ny""]") _ _).
  refine (me_one False near [] (bytes """k""") (bytes "k") [] (bytes " [1, ""x\ny""]") _ ltac:(white_space) _ ltac:(white_space) _ _).
  - apply (w_string False (bytes "k")). written.
  - split; [constructor|cbn; lia].
  - refine (el_value False near (bytes " ") (bytes "[1, ""x\ny""]") _ [] ltac:(white_space) _ ltac:(white_space)).
    refine (va_array False near (bytes "1, ""x\ny""") _ _).
    refine (es_more False near (bytes "1") _ (bytes " ""x\ny""") _ _ _).
    + apply w_element, va_number. exists [], (bytes "1"), [], []. split; [reflexivity|]. split; [left; reflexivity|]. split; [spell; apply int_more; [lia|constructor]|]. split; constructor.
    + apply es_one. refine (el_value False near (bytes " ") (bytes """x\ny""") _ [] ltac:(white_space) _ ltac:(white_space)).
      apply va_string. apply (w_string False (bytes "x\ny")). apply w_char; [reflexivity|]. apply (ch_short False 110%N 10%N); [cbn; tauto|]. written.
Qed.
Lemma line_no_double : no_double json_line.
Proof.
  intros a b. unfold json_line. change (bytes "{""k"": [1, ""x\ny""]} ") with (bytes "{""k"": [1, ""x" ++ 92%N :: bytes "ny""]} ").
  generalize (eq_refl (count_occ N.eq_dec (bytes "{""k"": [1, ""x" ++ 92%N :: bytes "ny""]} ") 92%N)). intros C E. rewrite E in C at 2.
  rewrite !count_occ_app in C. cbn [count_occ] in C. destruct (N.eq_dec 92 92); [|congruence].
  change (count_occ N.eq_dec (bytes "{""k"": [1, ""x") 92%N) with 0 in C. change (count_occ N.eq_dec (bytes "ny""]} ") 92%N) with 0 in C. lia.
Qed.
