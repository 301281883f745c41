(** Texts on which readers over a byte source differ from readers over the text. *)
From Verif Require Import SpecOwned SpecUtf8 SpecContent Utf8Facts QuotedFacts FlowFacts Contract CutScan Chunks.
Open Scope nat_scope.
From Coq Require Import Lia.

Definition eager : flags := mkFlags false false.
Definition deferring : flags := mkFlags false true.
Definition filled : list request := repeat Fill 8 ++ repeat Pull 20.

(** A comma and 8190 line feeds, then the two bytes of NEL around the end of the first
    block. *)
Definition feeds : str := repeat 10%N (N.to_nat 8186).
Definition straddling : str := 44%N :: 10%N :: 10%N :: 10%N :: 10%N :: feeds ++ [194%N; 133%N].

Lemma feeds_valid : valid feeds.
Proof. apply valid_ascii. apply Forall_forall. intros x H. apply repeat_spec in H. subst x. reflexivity. Qed.
Lemma straddling_valid : valid straddling.
Proof. change straddling with ([44%N; 10%N; 10%N; 10%N; 10%N] ++ feeds ++ [194%N; 133%N]). apply valid_app; [reflexivity|]. apply valid_app; [apply feeds_valid|reflexivity]. Qed.
Lemma first_block : firstn (N.to_nat 8192) straddling = ([44%N; 10%N; 10%N; 10%N; 10%N] ++ feeds) ++ [194%N].
Proof.
  change straddling with ([44%N; 10%N; 10%N; 10%N; 10%N] ++ feeds ++ [194%N; 133%N]). rewrite app_assoc.
  rewrite firstn_app. assert (L : List.length ([44%N; 10%N; 10%N; 10%N; 10%N] ++ feeds) = N.to_nat 8191).
  { rewrite app_length. unfold feeds. rewrite repeat_length. cbn [List.length]. lia. }
  rewrite L. rewrite firstn_all2 by lia. replace (N.to_nat 8192 - N.to_nat 8191) with 1 by lia. cbn [firstn]. reflexivity.
Qed.

(** The first two requests to a reader over a source. *)
Lemma second_request src t src' : read_upto 8192 src = (t, src', false) -> valid_utf8 t = false ->
  consumes (pour src eager) [Fill; Fill] = ([], Err RUtf8).
Proof.
  intros R V. cbn [consumes].
  assert (E1 : reader_scan (pour src eager) =
    (mkReader (mkSc 0 SStream true stats0 None cxt0) (q_push q_new (mkEntry (Tok TStreamStart) 0)) eager false (Own (owned_new src)), Ok tt)) by reflexivity.
  rewrite E1. unfold reader_scan. cbn [r_q r_opts r_in r_sc drive o_src owned_new]. cbn [drive_owned].
  match goal with |- context [scan_tokens ?o ?h ?sc ?q] => assert (E2 : scan_tokens o h sc q = (sc, q, Err Extend)) by reflexivity; rewrite E2 end.
  unfold refresh_buffer. cbn [o_tail o_head owned_new sc_offset List.length Nat.leb].
  change (chunk_cap 0 0) with 8192%N. change (o_src (owned_new src)) with src. rewrite R. cbn [skipn app]. rewrite V. reflexivity.
Qed.
(** A call that ends after one round. *)
Lemma scan_one o base start sc q b s1 f : want_more start sc q = true -> get_from base (sc_offset sc) = Some b ->
  scan_next_token o (mkMs b sc q) = (s1, Ok tt) -> want_more start (m_sc s1) (m_q s1) = false ->
  scan_loop (S f) o base start sc q = (set_offset (List.length base - List.length (m_buf s1)) (m_sc s1), m_q s1, Ok tt).
Proof.
  intros W G Q N. cbn [scan_loop]. rewrite W. unfold scan_round. rewrite G, Q.
  destruct f; cbn [scan_loop]; rewrite want_offset, N; reflexivity.
Qed.
(** The first two requests to a reader over a text that starts with a comma. *)
Lemma comma_request r : valid r -> exists r', consumes (open (44%N :: 10%N :: 10%N :: 10%N :: 10%N :: r) eager) [Fill; Fill] = ([], Ok r').
Proof.
  intros VR. set (t := 44%N :: 10%N :: 10%N :: 10%N :: 10%N :: r). set (sc1 := mkSc 0 SStream true stats0 None cxt0).
  set (q1 := q_push q_new (mkEntry (Tok TStreamStart) 0)). set (q2 := q_push q1 (mkEntry (Tok TFlowEntry) 1)).
  assert (L : List.length t + 3 = S (List.length t + 2)) by lia.
  assert (E1 : scan_tokens (no_extend eager) t scanner0 q_new = (sc1, q1, Ok tt)).
  { unfold scan_tokens. rewrite L. rewrite (scan_one _ _ _ _ _ t (mkMs t sc1 q1)); [|reflexivity..].
    cbn [m_buf m_sc m_q]. rewrite Nat.sub_diag. reflexivity. }
  set (sc2 := mkSc 0 SStream true (mkStats 1 0 1) None cxt0).
  assert (E2 : scan_next_token (no_extend eager) (mkMs t sc1 q1) = (mkMs (10%N :: 10%N :: 10%N :: 10%N :: r) sc2 q2, Ok tt)).
  { unfold scan_next_token. unfold mbind at 1, get_sc at 1. cbn [m_sc sc_state sc1]. unfold mbind at 1.
    rewrite sc_eat_still; [reflexivity| |discriminate|reflexivity..].
    apply (valid_app [44%N; 10%N; 10%N; 10%N; 10%N]); [reflexivity|exact VR]. }
  cbn [consumes]. unfold reader_scan, open, reader_new. cbn [r_q r_opts r_in r_sc drive]. rewrite E1. cbn [map_err r_q r_opts r_in r_sc].
  cbn [drive]. unfold scan_tokens. rewrite L. rewrite (scan_one (no_extend eager) t (q_len q1) sc1 q1 t _ _ eq_refl eq_refl E2 eq_refl). eexists. reflexivity.
Qed.
Lemma straddle : exists src t, steady src /\ bytes_of src = t /\ well_formed t /\
  (exists r, consumes (open t eager) [Fill; Fill] = ([], Ok r)) /\
  consumes (pour src eager) [Fill; Fill] = ([], Err RUtf8).
Proof.
  assert (ST : steady [Data straddling]) by (constructor; [eexists; eexists; reflexivity|constructor]).
  assert (BY : bytes_of [Data straddling] = straddling) by apply app_nil_r.
  exists [Data straddling], straddling. split; [exact ST|]. split; [exact BY|]. split; [apply valid_iff, straddling_valid|].
  split; [apply comma_request; apply valid_app; [apply feeds_valid|reflexivity]|].
  pose proof (read_upto_spec [Data straddling] 8192 ST) as RU. rewrite BY in RU.
  destruct (read_upto 8192 [Data straddling]) as [[t src'] e] eqn:R. destruct RU as (-> & _ & _ & F & _).
  eapply second_request; [exact R|]. rewrite F, first_block. apply not_true_is_false. intros V.
  assert (valid [194%N]) as V1 by (eapply valid_tail; [|exact V]; apply valid_app; [reflexivity|apply feeds_valid]).
  discriminate V1.
Qed.

(** A block scalar with something after it. *)
Definition deferred_block : str := bytes "a: |" ++ [10%N] ++ bytes "  x" ++ [10%N] ++ bytes "b: c".
(** What the scalars turn out to be when they are evaluated. *)
Definition evaluated (l : list entry) : list (sres token) := map (fun e => into_token (e_wrap e)) l.

Lemma deferred_differs : exists src t, steady src /\ bytes_of src = t /\ well_formed t /\
  (exists r r', snd (consumes (open t deferring) filled) = Ok r /\ snd (consumes (pour src deferring) filled) = Ok r') /\
  (forall x, In x (evaluated (fst (consumes (open t deferring) filled))) -> exists k, x = Ok k) /\
  In (Err Extend) (evaluated (fst (consumes (pour src deferring) filled))).
Proof.
  exists [Data deferred_block], deferred_block.
  split; [constructor; [|constructor]; eexists; eexists; vm_compute; reflexivity|].
  split; [vm_compute; reflexivity|]. split; [apply valid_iff; vm_compute; reflexivity|].
  split; [|split].
    + destruct (consumes (open deferred_block deferring) filled) as [l x] eqn:C1.
      destruct (consumes (pour [Data deferred_block] deferring) filled) as [l' x'] eqn:C2.
      vm_compute in C1, C2. inversion C1. inversion C2. cbn [snd]. eauto.
    + intros x. vm_compute. intuition (subst; eauto).
    + vm_compute. auto 20.
Qed.

(** ** As claimed *)
Lemma chunks_unseen t src o : well_formed t -> steady src -> bytes_of src = t -> lazy_mode o = false ->
  forall s l x l' x', consumes (pour src o) s = (l, x) -> consumes (open t o) s = (l', x') ->
  l = l' /\ alike x x' \/
  x = Err RUtf8 /\ ~ all_ascii t /\ ~ short t /\ exists r, l' = l ++ r.
Proof.
  intros W S B LZ s l x l' x' E E'. apply valid_iff in W.
  destruct (owned_as_borrowed t src o S B W LZ s l x l' x' E E') as [(H1 & H2 & H3)|H]; [right|left; exact H].
  split; [exact H1|]. split; [intros H; apply H2; left; exact H|]. split; [intros H; apply H2; right; exact H|exact H3].
Qed.
Lemma deferred_unseen t src o : well_formed t -> steady src -> bytes_of src = t -> lazy_mode o = true -> ~ In 13%N t ->
  forall s l x l' x', consumes (pour src o) s = (l, x) -> consumes (open t o) s = (l', x') ->
  l' = map settled l /\ alike_settled x x' \/
  x = Err RUtf8 /\ ~ all_ascii t /\ ~ short t /\ exists r, l' = map settled l ++ r.
Proof.
  intros W S B LZ NR s l x l' x' E E'. apply valid_iff in W.
  destruct (owned_sealed true t src o S B W LZ (fun _ => NR) s l x l' x' E E') as [(H1 & H2 & H3)|H]; [right|left; exact H].
  split; [exact H1|]. split; [intros H; apply H2; left; exact H|]. split; [intros H; apply H2; right; exact H|exact H3].
Qed.
