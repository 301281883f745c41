(** The events of documents. *)
From Verif Require Export YamlDoc.
From Verif Require Import TapeStream EventCount ContentFacts TokenLaws StreamFacts SpecYaml SpecUtf8 Utf8Facts SpecOwned OwnedEvents.
From Coq Require Import Lia ZifyBool ZifyN ZifyNat.
Open Scope nat_scope.

Lemma pop_exhausted r p : pk_pop (peek_new r) = (p, Ok None) -> reader_exhausted (pk_reader p) = true.
Proof.
  intros E. pose proof (pop_last _ _ E) as P.
  assert (N : pk_peek p = None).
  { revert E. unfold pk_pop, peek_new. cbn [pk_peek pk_reader]. destruct (reader_exhausted r); [intros [= <-]; reflexivity|].
    destruct (take_next _) as [p' [a|e| |]]; try discriminate. intros E. pose proof (f_equal fst E) as E1. cbn in E1. rewrite <- E1. reflexivity. }
  revert P. unfold pk_pop. rewrite N. destruct (reader_exhausted (pk_reader p)) eqn:X; [reflexivity|].
  unfold take_next. rewrite N. set (c := if Nat.eqb _ _ then _ else _).
  assert (C : c = (if Nat.eqb (q_len (r_q (pk_reader p))) 0 then reader_scan (pk_reader p) else (pk_reader p, Ok tt)))
    by reflexivity. clearbody c.
  destruct c as [r1 [[]|er| |]]; try discriminate.
  destruct (q_pop entry_cmp (r_q r1)) as [[e|] q] eqn:Q; cbn [pk_peek pk_reader]; intros Y; [discriminate|].
  destruct (pop_empty _ _ _ Q) as [-> Z].
  assert (E1 : r_exhausted r1 = true).
  { destruct (Nat.eqb (q_len (r_q (pk_reader p))) 0) eqn:M.
    - apply Nat.eqb_eq in M. symmetry in C. exact (scan_exhausts _ _ M C Z).
    - injection C as ->. apply Nat.eqb_neq in M. contradiction. }
  pose proof (f_equal fst Y) as Y1. cbn in Y1. rewrite <- Y1 in X. unfold reader_exhausted in X. cbn in X. rewrite E1, Z in X. discriminate.
Qed.
Lemma tape_schedule l : forall r, on_tape (peek_new r) (l, Ok tt) -> exists s r', consumes r s = (l, Ok r') /\ reader_exhausted r' = true.
Proof.
  induction l as [|e l IH]; intros r O.
  - apply on_end in O. destruct (pop_schedule r) as (s & P). destruct (pk_pop (peek_new r)) as [p x] eqn:E. cbn in O. subst x.
    destruct P as (r' & -> & C). exists s, r'. split; [exact C|]. apply (pop_exhausted r _ E).
  - apply on_head in O as [H O]. destruct (pop_schedule r) as (s & P). destruct (pk_pop (peek_new r)) as [p x] eqn:E. cbn in H, O. subst x.
    destruct P as (r' & -> & C). destruct (IH r' O) as (s' & r2 & C' & X). exists (s ++ s'), r2. split; [|exact X].
    rewrite consumes_app, C, C'. reflexivity.
Qed.

Lemma yields_tape t o l : well_formed t -> yields t o l -> reading t (peek_new (open t o)) (l, Ok tt).
Proof.
  intros W (Y1 & s & r & Y2). destruct (text_tape t o W) as (l2 & x2 & R & F).
  pose proof (proj1 R) as O. unfold on_tape in O. cbn [fst snd] in O.
  destruct (taken_schedule (List.length l2 + 1) (open t o)) as (s2 & l3 & x3 & C & D & CE & CP & CF).
  destruct (Y1 _ _ _ C) as [(r3 & ->) _]. rewrite O in CE, CP, CF.
  assert (X : x2 = Ok tt).
  { destruct x2 as [[]|e| |]; [reflexivity|exfalso..].
    - specialize (CE e ltac:(apply in_or_app; right; left; reflexivity)). discriminate.
    - specialize (CP ltac:(apply in_or_app; right; left; reflexivity)). discriminate.
    - apply F. reflexivity. }
  subst x2. destruct (tape_schedule l2 _ (proj1 R)) as (s4 & r4 & C4 & X4).
  destruct (stream_complete t o (proj2 (valid_iff t) W) _ _ _ _ _ _ C4 X4 Y2) as [(a & A) _].
  destruct (Y1 _ _ _ C4) as [_ (b & B)].
  assert (E : l = l2). { rewrite A, <- app_assoc in B. rewrite <- (app_nil_r l) in B at 1. apply app_inv_head in B. destruct a; [|discriminate]. rewrite app_nil_r in A. auto. }
  rewrite E. exact R.
Qed.

Lemma stream_events t e debug : all_ascii t -> stream t e ->
  exists es evs, run_events peek_source debug (List.length es + 1) parser0 (snd (events_new (Borrow t) false))
      = map (fun x => Ok (Some x)) es ++ [Ok None] /\
    map ev_data es = EvStreamStart :: evs ++ [EvStreamEnd] /\
    map shows evs = map Some e.
Proof.
  intros A D.
  destruct (stream_tokens (as_scanner false) eq_refl eq_refl t e A D) as (h & k & sc & ts & evs & C & SD & TK & SA & G).
  pose proof (ascii_well_formed t A) as W.
  assert (Y : yields t (as_scanner false) (isort h)) by (apply calls_yields with (k := k) (sc := sc); [apply valid_iff, W|exact C|exact SD]).
  pose proof (yields_tape _ _ _ W Y) as R.
  assert (T : t_stream (map e_wrap (isort h)) (EvStreamStart :: evs ++ [EvStreamEnd]) []).
  { rewrite TK. constructor. exact G. }
  destruct (proj2 (translation_exact debug (isort h) _) (ex_intro _ [] T)) as (n & es & E & RN).
  exists es, evs. split; [|split; [exact E|exact SA]].
  cbn [events_new snd]. rewrite (proj2 (reading_runs _ _ _ debug _ parser0 R) eq_refl), <- list_tape.
  assert (N : n = List.length es + 1).
  { pose proof (f_equal (@List.length _) RN) as X. rewrite app_length, map_length in X. rewrite <- (run_length list_source debug n parser0 (isort h)). exact X. }
  rewrite <- N. exact RN.
Qed.

Lemma source_events t e src debug : all_ascii t -> stream t e -> steady src -> bytes_of src = t ->
  exists es evs, run_events peek_source debug (List.length es + 1) parser0 (snd (events_new (Own (owned_new src)) false))
      = map (fun x => Ok (Some x)) es ++ [Ok None] /\
    map ev_data es = EvStreamStart :: evs ++ [EvStreamEnd] /\
    map shows evs = map Some e.
Proof.
  intros A D S B. destruct (stream_events t e debug A D) as (es & evs & R & E & V). exists es, evs. split; [|split; assumption].
  destruct (poured_events t src debug (ascii_well_formed t A) S B (or_introl A) (List.length es + 1)) as [_ P].
  rewrite R in P. apply P. apply Forall_app. split; [|repeat constructor; eexists; reflexivity].
  apply Forall_map, Forall_forall. intros x _. exists (Some x). reflexivity.
Qed.
