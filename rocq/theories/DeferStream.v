(** Reading a text with deferred scalars: the same tokens at the same positions as
    without, and each deferred scalar evaluates to the token it stands for. *)
From Verif Require Import QuotedFacts PlainFacts LazyFacts SpecStream.
From Verif Require Export NarrowPlain NarrowBlock SpecDefer.
From Coq Require Import Lia ZifyBool ZifyN ZifyNat.
Open Scope nat_scope.

(** ** Scanners that defer nothing do not look at the mode *)
Lemma take_while_eq f s : take_while LZ f s = take_while EG f s.
Proof. induction s as [|b r IH]; [reflexivity|]. cbn [take_while]. rewrite IH. reflexivity. Qed.
Lemma eat_eq b st c : eat_whitespace LZ b st c = eat_whitespace EG b st c.
Proof. reflexivity. Qed.
Lemma anchor_eq b st al : scan_anchor LZ b st al = scan_anchor EG b st al.
Proof.
  unfold scan_anchor. destruct (adv b st 1) as [[buf s]| | |]; cbn [bind]; [|reflexivity..].
  rewrite take_while_eq. reflexivity.
Qed.
Lemma handle_eq b st : scan_tag_handle LZ b st = scan_tag_handle EG b st.
Proof.
  unfold scan_tag_handle. change (cache LZ b 1) with (cache EG b 1). destruct (cache EG b 1); cbn [bind]; [|reflexivity..].
  destruct b as [|x b]; [reflexivity|]. destruct (x =? 33)%N; [|reflexivity].
  destruct (skip (x :: b) 1) as [r| | |]; cbn [bind]; [|reflexivity..]. rewrite take_while_eq. reflexivity.
Qed.
Lemma uri_eq b st bo v : scan_tag_uri LZ b st bo v = scan_tag_uri EG b st bo v.
Proof. reflexivity. Qed.
Lemma tagdir_eq b st : scan_tag_directive LZ b st = scan_tag_directive EG b st.
Proof. unfold scan_tag_directive. rewrite handle_eq. reflexivity. Qed.
Lemma node_tag_eq b st : scan_node_tag LZ b st = scan_node_tag EG b st.
Proof. unfold scan_node_tag. rewrite handle_eq. reflexivity. Qed.
Lemma version_eq s : scan_directive_version LZ s = scan_directive_version EG s.
Proof. unfold scan_directive_version. rewrite take_while_eq. reflexivity. Qed.
Lemma directive_eq b st k : scan_directive LZ b st k = scan_directive EG b st k.
Proof.
  unfold scan_directive. rewrite eat_eq. destruct (eat_whitespace EG b st false) as [[buf s]| | |]; cbn [bind]; [|reflexivity..].
  destruct k.
  - rewrite version_eq. destruct (scan_directive_version EG buf) as [[ma n]| | |]; cbn [bind]; [|reflexivity..].
    destruct (adv buf s n) as [[b1 s1]| | |]; cbn [bind]; [|reflexivity..].
    change (cache LZ b1 1) with (cache EG b1 1). destruct (cache EG b1 1); cbn [bind]; [|reflexivity..].
    destruct b1 as [|x b1]; [reflexivity|]. destruct (x =? 46)%N; [|reflexivity].
    destruct (adv (x :: b1) s1 1) as [[b2 s2]| | |]; cbn [bind]; [|reflexivity..]. rewrite version_eq. reflexivity.
  - rewrite tagdir_eq. reflexivity.
Qed.

(** ** Related states *)
Definition good (t : str) : Prop := ascii t /\ no_double t.
Lemma good_skipn n t : good t -> good (skipn n t).
Proof.
  intros (A & D). split; [|apply no_double_skipn; exact D].
  rewrite <- (firstn_skipn n t) in A. apply Forall_app in A. apply A.
Qed.

Definition trel (m m' : maybe_token) : Prop := exists t, m = Tok t /\ evaluates m' t.
Definition erel (a b : entry) : Prop := e_read b = e_read a /\ trel (e_wrap a) (e_wrap b).
Definition hrel (a b : nat * entry) : Prop := fst b = fst a /\ erel (snd a) (snd b).
Definition qrel (q q' : tokens) : Prop := q_inc q' = q_inc q /\ Forall2 hrel (q_heap q) (q_heap q').
Definition msim (s s' : ms) : Prop :=
  m_buf s' = m_buf s /\ m_sc s' = m_sc s /\ qrel (m_q s) (m_q s') /\ good (m_buf s).

Lemma qrel_len q q' : qrel q q' -> q_len q' = q_len q.
Proof. intros (_ & H). unfold q_len. induction H; cbn [List.length]; congruence. Qed.
Lemma qrel_push q q' a b : qrel q q' -> erel a b -> qrel (q_push q a) (q_push q' b).
Proof.
  intros (I & H) E. unfold q_push. split; cbn [q_inc q_heap]; [congruence|].
  apply Forall2_app; [exact H|]. constructor; [|constructor]. split; cbn [fst snd]; [congruence|exact E].
Qed.
Lemma extract_rel l l' : Forall2 hrel l l' -> forall x x', hrel x x' ->
  hrel (fst (extract entry entry_cmp x l)) (fst (extract entry entry_cmp x' l')) /\
  Forall2 hrel (snd (extract entry entry_cmp x l)) (snd (extract entry entry_cmp x' l')).
Proof.
  induction 1 as [|y y' l l' Y H IH]; intros x x' X; cbn [extract].
  - split; [exact X|constructor].
  - specialize (IH y y' Y). destruct (extract entry entry_cmp y l) as [m r], (extract entry entry_cmp y' l') as [m' r'].
    cbn [fst snd] in IH. destruct IH as [IH1 IH2].
    assert (Q : q_lt entry entry_cmp m' x' = q_lt entry entry_cmp m x).
    { unfold q_lt, entry_cmp. destruct IH1 as (-> & -> & _), X as (-> & -> & _). reflexivity. }
    rewrite Q. destruct (q_lt entry entry_cmp m x); cbn [fst snd]; split; auto.
Qed.
Lemma pop_rel q q' : qrel q q' ->
  match q_pop entry_cmp q with
  | (Some e, q1) => exists e' q1', q_pop entry_cmp q' = (Some e', q1') /\ erel e e' /\ qrel q1 q1'
  | (None, q1) => exists q1', q_pop entry_cmp q' = (None, q1') /\ qrel q1 q1'
  end.
Proof.
  intros (I & H). unfold q_pop. inversion H as [E E'|x x' l l' X HL E E'].
  - exists q'. split; [reflexivity|]. split; assumption.
  - destruct (extract_rel _ _ HL _ _ X) as [M R]. destruct (extract entry entry_cmp x l) as [m r], (extract entry entry_cmp x' l') as [m' r'].
    cbn [fst snd] in M, R. do 2 eexists. split; [reflexivity|]. split; [apply M|]. split; [exact I|exact R].
Qed.

(** ** Related methods *)
Definition sim_at {A} (m m' : M A) (s s' : ms) : Prop :=
  match m s with
  | (s1, Ok a) => exists s1', m' s' = (s1', Ok a) /\ msim s1 s1'
  | _ => True
  end.
Definition sim {A} (m m' : M A) : Prop := forall s s', msim s s' -> sim_at m m' s s'.

Lemma sim_ret {A} (a : A) : sim (mret a) (mret a).
Proof. intros s s' S. exists s'. split; [reflexivity|exact S]. Qed.
Lemma sim_lift {A} (r : sres A) : sim (mlift r) (mlift r).
Proof. intros s s' S. unfold sim_at, mlift. destruct r; auto. exists s'. split; [reflexivity|exact S]. Qed.
Lemma sim_bind {A B} (m m' : M A) (k k' : A -> M B) : sim m m' -> (forall a, sim (k a) (k' a)) -> sim (mbind m k) (mbind m' k').
Proof.
  intros H K s s' S. specialize (H s s' S). unfold sim_at, mbind in *. destruct (m s) as [s1 [a| | |]]; auto.
  destruct H as (s1' & -> & S1). apply (K a s1 s1' S1).
Qed.
Lemma sim_buf {A} (k k' : str -> M A) : (forall b, good b -> sim (k b) (k' b)) -> sim (mbind get_buf k) (mbind get_buf k').
Proof.
  intros K s s' S. pose proof S as (B & _ & _ & G). pose proof (K _ G s s' S) as X. unfold sim_at, mbind, get_buf in *. rewrite B. exact X.
Qed.
Lemma sim_sc {A} (k k' : scanner -> M A) : (forall c, sim (k c) (k' c)) -> sim (mbind get_sc k) (mbind get_sc k').
Proof.
  intros K s s' S. pose proof S as (_ & B & _ & _). pose proof (K (m_sc s) s s' S) as X. unfold sim_at, mbind, get_sc in *. rewrite B. exact X.
Qed.
Lemma sim_lift_ok {A B} (r r' : sres A) (k k' : A -> M B) :
  (forall a, r = Ok a -> exists a', r' = Ok a' /\ sim (k a) (k' a')) -> sim (mbind (mlift r) k) (mbind (mlift r') k').
Proof.
  intros K s s' S. unfold sim_at, mbind, mlift. destruct r as [a| | |]; auto. destruct (K a eq_refl) as (a' & -> & H). apply H. exact S.
Qed.
Lemma sim_upd f : sim (upd f) (upd f).
Proof.
  intros s s' (B & C & Q & G). unfold sim_at, upd. eexists. split; [reflexivity|].
  split; cbn [m_buf m_sc m_q]; [assumption|]. split; [congruence|]. split; assumption.
Qed.
Lemma sim_enqueue t t' r : trel t t' -> sim (enqueue t r) (enqueue t' r).
Proof.
  intros T s s' (B & C & Q & G). unfold sim_at, enqueue. eexists. split; [reflexivity|].
  split; cbn [m_buf m_sc m_q]; [assumption|]. split; [assumption|]. split; [|assumption].
  apply qrel_push; [exact Q|]. split; [reflexivity|assumption].
Qed.
Lemma trel_tok t : trel (Tok t) (Tok t).
Proof. exists t. split; [reflexivity|left; reflexivity]. Qed.
Lemma sim_here t t' : trel t t' -> sim (enqueue_here t) (enqueue_here t').
Proof. intros T. unfold enqueue_here. apply sim_sc. intros c. apply sim_enqueue. exact T. Qed.
Lemma sim_ends n mark : sim (enqueue_ends n mark) (enqueue_ends n mark).
Proof.
  induction n as [|n IH]; cbn [enqueue_ends]; [apply sim_ret|]. apply sim_bind; [apply sim_enqueue, trel_tok|]. intros _. exact IH.
Qed.
Lemma sim_advance n : sim (advance n) (advance n).
Proof.
  intros s s' (B & C & Q & G). unfold sim_at, advance, mbind, get_buf, mlift, put_buf. rewrite B.
  destruct (skip (m_buf s) n) as [r| | |] eqn:E; auto. eexists. split; [reflexivity|].
  split; cbn [m_buf m_sc m_q]; [reflexivity|]. split; [assumption|]. split; [assumption|].
  unfold skip in E. destruct (is_boundary _ _); [|discriminate]. assert (r = skipn n (m_buf s)) as -> by congruence.
  apply good_skipn. exact G.
Qed.

Ltac sim1 :=
  match goal with
  | |- sim (mbind get_buf _) _ => apply sim_buf; intros
  | |- sim (mbind get_sc _) _ => apply sim_sc; intros
  | |- sim (mbind _ _) _ => apply sim_bind; [|intros]
  | |- sim (mret _) _ => apply sim_ret
  | |- sim (mlift _) _ => apply sim_lift
  | |- sim (upd _) _ => apply sim_upd
  | |- sim (enqueue _ _) _ => apply sim_enqueue; try apply trel_tok
  | |- sim (enqueue_here _) _ => apply sim_here; try apply trel_tok
  | |- sim (enqueue_ends _ _) _ => apply sim_ends
  | |- sim (advance _) _ => apply sim_advance
  | |- sim (advance_st _) _ => unfold advance_st
  | |- sim (add_st _) _ => unfold add_st
  | |- sim (if ?c then _ else _) _ => destruct c eqn:?
  | |- sim (match ?c with _ => _ end) _ => destruct c eqn:?
  | |- sim (let _ := _ in _) _ => cbv zeta
  end.
Ltac sims := repeat sim1.

Lemma sim_unroll c : sim (unroll_indent c) (unroll_indent c).
Proof. unfold unroll_indent. sims. Qed.
Lemma sim_roll a b c d : sim (roll_indent a b c d) (roll_indent a b c d).
Proof. unfold roll_indent. sims. Qed.
Lemma sim_expire : sim expire_stale_saved_key expire_stale_saved_key.
Proof. unfold expire_stale_saved_key. sims. Qed.
Lemma sim_remove : sim remove_saved_key remove_saved_key.
Proof. unfold remove_saved_key. sims. Qed.
Lemma sim_save r : sim (save_key r) (save_key r).
Proof. unfold save_key. repeat (sim1 || apply sim_remove). Qed.
Lemma sim_zero : sim pop_zero_indent_sequence pop_zero_indent_sequence.
Proof. unfold pop_zero_indent_sequence. sims. Qed.
Ltac simall := repeat (sim1 || apply sim_unroll || apply sim_roll || apply sim_expire || apply sim_remove || apply sim_save || apply sim_zero).

Lemma sim_eat : sim (sc_eat_whitespace EG) (sc_eat_whitespace LZ).
Proof. unfold sc_eat_whitespace. apply sim_buf. intros b _. rewrite eat_eq. simall. Qed.
Lemma sim_start : sim fetch_stream_start fetch_stream_start.
Proof. unfold fetch_stream_start. simall. Qed.
Lemma sim_end : sim fetch_stream_end fetch_stream_end.
Proof. unfold fetch_stream_end. simall. Qed.
Lemma sim_marker st : sim (fetch_document_marker st) (fetch_document_marker st).
Proof. unfold fetch_document_marker. simall. Qed.
Lemma sim_directive : sim (fetch_directive EG) (fetch_directive LZ).
Proof.
  unfold fetch_directive. apply sim_buf. intros b _. destruct (negb _); [apply sim_ret|].
  change (cache_at LZ b 1 4) with (cache_at EG b 1 4).
  apply sim_bind; [apply sim_lift|]. intros _. apply sim_bind; [apply sim_lift|]. intros body. apply sim_bind; [apply sim_lift|]. intros k.
  apply sim_bind; [apply sim_lift|]. intros [buf d]. rewrite directive_eq. simall.
Qed.
Lemma sim_tag : sim (fetch_tag EG) (fetch_tag LZ).
Proof. unfold fetch_tag. apply sim_buf. intros b _. destruct (negb _); [apply sim_ret|]. rewrite node_tag_eq. simall. Qed.
Lemma sim_anchor : sim (fetch_anchor EG) (fetch_anchor LZ).
Proof. unfold fetch_anchor. apply sim_buf. intros b _. destruct (_ || _); [|apply sim_ret]. rewrite anchor_eq. simall. Qed.
Lemma sim_explicit : sim fetch_explicit_key fetch_explicit_key.
Proof. unfold fetch_explicit_key. simall. Qed.
Lemma sim_value : sim fetch_value fetch_value.
Proof. unfold fetch_value. simall. Qed.
Lemma sim_flow_start m : sim (fetch_flow_collection_start m) (fetch_flow_collection_start m).
Proof. unfold fetch_flow_collection_start. simall. Qed.
Lemma sim_flow_end m : sim (fetch_flow_collection_end m) (fetch_flow_collection_end m).
Proof. unfold fetch_flow_collection_end. simall. Qed.
Lemma sim_flow_entry : sim fetch_flow_collection_entry fetch_flow_collection_entry.
Proof. unfold fetch_flow_collection_entry. simall. Qed.
Lemma sim_block_entry : sim fetch_block_collection_entry fetch_block_collection_entry.
Proof. unfold fetch_block_collection_entry. simall. Qed.

(** ** Scalars *)
Lemma flow_case b (single : bool) t n st st' : good b -> at_is b 0 (if single then 39%N else 34%N) = true ->
  scan_flow_scalar EG b st single = Ok (t, n, st') ->
  exists t', scan_flow_scalar LZ b st single = Ok (t', n, st') /\ trel t t'.
Proof.
  intros (A & D) H E. unfold scan_flow_scalar in *. cbn [lazy_mode] in *.
  apply bind_inv in E as ([[tk k] s2] & E & X). assert (t = Tok tk) as -> by congruence.
  assert (k = n) as -> by congruence. assert (s2 = st') as -> by congruence. clear X.
  destruct b as [|c r]; [discriminate|]. assert (c = if single then 39%N else 34%N) as HC.
  { unfold at_is in H. cbn [nth_error] in H. apply N.eqb_eq in H. exact H. }
  destruct (lazy_flow_ok EG LZ single eq_refl eq_refl c r st tk n st' A HC (fun _ => D) E) as [L F].
  eexists. rewrite F. split; [reflexivity|]. exists tk. split; [reflexivity|]. left.
  unfold into_token, eval_deferred. change (no_extend LZ) with LZ. subst c.
  rewrite (flow_prefix EG LZ single eq_refl eq_refl r st tk n st' A (fun _ => D) E). reflexivity.
Qed.
Lemma sim_flow_scalar : sim (fetch_flow_scalar EG) (fetch_flow_scalar LZ).
Proof.
  unfold fetch_flow_scalar. apply sim_buf. intros b G. destruct (_ || _) eqn:H; [|apply sim_ret].
  apply sim_lift_ok. intros [[t n] st'] E. destruct (flow_case b (at_is b 0 39) t n stats0 st' G) as (t' & E' & T).
  { destruct (at_is b 0 39) eqn:Q; [exact Q|exact H]. }
  { exact E. }
  exists (t', n, st'). split; [exact E'|]. simall. exact T.
Qed.
Lemma plain_case b c t n st st' : good b -> plain_first b st (is_block c) ->
  scan_plain_scalar EG b st c = Ok (t, n, st') ->
  exists t', scan_plain_scalar LZ b st c = Ok (t', n, st') /\ trel t t'.
Proof.
  intros (A & _) PF E. unfold scan_plain_scalar in *. cbn [lazy_mode] in *.
  apply bind_inv in E as ([[tk k] s2] & E & X). assert (t = Tok tk) as -> by congruence.
  assert (k = n) as -> by congruence. assert (s2 = st') as -> by congruence. clear X.
  destruct (plain_defer EG LZ LZ _ _ eq_refl eq_refl eq_refl b st tk n st' A PF E) as (m & L & F).
  eexists. rewrite L. split; [reflexivity|]. exists tk. split; [reflexivity|]. left.
  unfold into_token, eval_deferred. change (no_extend LZ) with LZ. rewrite F. reflexivity.
Qed.
Lemma sim_plain_at s s' : msim s s' -> plain_first (m_buf s) (sc_st (m_sc s)) (is_block (sc_cxt (m_sc s))) ->
  sim_at (fetch_plain_scalar EG) (fetch_plain_scalar LZ) s s'.
Proof.
  intros S PF. pose proof S as (B & C & Q & G).
  set (k := fun x : maybe_token * nat * stats => let '(tok, amt, st) := x in
    save_key false ;; upd (set_ska false) ;; advance amt ;; upd (set_st st) ;; enqueue_here tok).
  assert (X : sim_at (mbind (mlift (scan_plain_scalar EG (m_buf s) (sc_st (m_sc s)) (sc_cxt (m_sc s)))) k)
    (mbind (mlift (scan_plain_scalar LZ (m_buf s') (sc_st (m_sc s')) (sc_cxt (m_sc s')))) k) s s').
  { rewrite B, C. apply sim_lift_ok; [|exact S]. intros [[t n] st'] E. destruct (plain_case _ _ _ _ _ _ G PF E) as (t' & E' & T).
    exists (t', n, st'). split; [exact E'|]. unfold k. simall. exact T. }
  exact X.
Qed.

Lemma block_case b c (fold : bool) t n st st' : good b -> at_is b 0 124 || at_is b 0 62 = true ->
  scan_block_scalar EG b st c fold = Ok (t, n, st') ->
  exists t', scan_block_scalar LZ b st c fold = Ok (t', n, st') /\ trel t t'.
Proof.
  intros (A & _) H E. unfold scan_block_scalar in *. cbn [lazy_mode] in *.
  apply bind_inv in E as ([[tk k] s2] & E & X). assert (t = Tok tk) as -> by congruence.
  assert (k = n) as -> by congruence. assert (s2 = st') as -> by congruence. clear X.
  rewrite (block_lazy _ _ _ _ _ _ _ A E). cbn [bind]. eexists. split; [reflexivity|]. exists tk. split; [reflexivity|].
  destruct b as [|x r]; [discriminate|]. assert (PB : plain_byte x).
  { unfold at_is in H. cbn [nth_error] in H. unfold plain_byte. inversion A; subst. clear - H H2. lia. }
  destruct (block_narrow _ _ _ _ _ _ _ _ PB A E) as (u & u' & -> & UB & m & s3 & E2).
  right. exists u, u', (if fold then Folded else Literal). split; [reflexivity|]. split; [destruct fold; auto|]. split; [|exact UB].
  unfold into_token, eval_deferred. rewrite E2. reflexivity.
Qed.
Lemma sim_block_scalar_at fold s s' : msim s s' -> at_is (m_buf s) 0 124 || at_is (m_buf s) 0 62 = true ->
  sim_at (fetch_block_scalar EG fold) (fetch_block_scalar LZ fold) s s'.
Proof.
  intros S PF. pose proof S as (B & C & Q & G).
  set (k := fun x : maybe_token * nat * stats => let '(tok, amt, st) := x in
    advance amt ;; upd (set_st st) ;; enqueue_here tok).
  assert (X : sim_at (remove_saved_key ;; upd (set_ska true) ;; mbind (mlift (scan_block_scalar EG (m_buf s) (sc_st (m_sc s)) (sc_cxt (m_sc s)) fold)) k)
    (remove_saved_key ;; upd (set_ska true) ;; mbind (mlift (scan_block_scalar LZ (m_buf s') (sc_st (m_sc s')) (sc_cxt (m_sc s')) fold)) k) s s').
  { rewrite B, C. apply sim_bind; [apply sim_remove|intros _|exact S]. apply sim_bind; [apply sim_upd|intros _].
    apply sim_lift_ok. intros [[t n] st'] E. destruct (block_case _ _ _ _ _ _ _ G PF E) as (t' & E' & T).
    exists (t', n, st'). split; [exact E'|]. unfold k. simall. exact T. }
  exact X.
Qed.

Lemma sim_dispatch : sim (dispatch EG) (dispatch LZ).
Proof.
  intros s s' S. pose proof S as (EB & EC & _ & G).
  assert (DE : forall o s, dispatch o s = 
    (let b := m_buf s in let sc := m_sc s in
     let col0 := Nat.eqb (scol (sc_st sc)) 0 in
     let flow := is_flow (sc_cxt sc) in
     let hd c := at_is b 0 c in
     if hd 37%N && col0 then fetch_directive o
     else if (starts_with b (bytes "---") || starts_with b (bytes "..."))
             && (col0 && is_wsZ_at b 3) then fetch_document_marker (hd 45%N)
     else if hd 123%N || hd 91%N then fetch_flow_collection_start (hd 123%N)
     else if hd 125%N || hd 93%N then fetch_flow_collection_end (hd 125%N)
     else if hd 44%N then fetch_flow_collection_entry
     else if hd 45%N && is_wsZ_at b 1 then fetch_block_collection_entry
     else if hd 63%N && (flow || is_wsZ_at b 1) then fetch_explicit_key
     else if hd 58%N && (is_wsZ_at b 1 || flow) then fetch_value
     else if hd 38%N || hd 42%N then fetch_anchor o
     else if hd 33%N then fetch_tag o
     else if (hd 124%N || hd 62%N) && is_block (sc_cxt sc) then fetch_block_scalar o (hd 62%N)
     else if hd 39%N || hd 34%N then fetch_flow_scalar o
     else if is_plain_scalar b (sc_cxt sc) then fetch_plain_scalar o
     else mlift (Err UnknownDelimiter)) s) by reflexivity.
  unfold sim_at. rewrite (DE EG s), (DE LZ s'), EB, EC. clear DE. cbv zeta.
  set (b := m_buf s) in *. set (sc := m_sc s) in *.
  destruct (at_is b 0 37 && Nat.eqb (scol (sc_st sc)) 0) eqn:T1; [apply sim_directive; exact S|].
  destruct ((starts_with b (bytes "---") || starts_with b (bytes "...")) &&
              (Nat.eqb (scol (sc_st sc)) 0 && is_wsZ_at b 3)) eqn:T2; [apply sim_marker; exact S|].
  destruct (at_is b 0 123 || at_is b 0 91) eqn:T3; [apply sim_flow_start; exact S|].
  destruct (at_is b 0 125 || at_is b 0 93) eqn:T4; [apply sim_flow_end; exact S|].
  destruct (at_is b 0 44) eqn:T5; [apply sim_flow_entry; exact S|].
  destruct (at_is b 0 45 && is_wsZ_at b 1) eqn:T6; [apply sim_block_entry; exact S|].
  destruct (at_is b 0 63 && (is_flow (sc_cxt sc) || is_wsZ_at b 1)) eqn:T7; [apply sim_explicit; exact S|].
  destruct (at_is b 0 58 && (is_wsZ_at b 1 || is_flow (sc_cxt sc))) eqn:T8; [apply sim_value; exact S|].
  destruct (at_is b 0 38 || at_is b 0 42) eqn:T9; [apply sim_anchor; exact S|].
  destruct (at_is b 0 33) eqn:T10; [apply sim_tag; exact S|].
  destruct ((at_is b 0 124 || at_is b 0 62) && is_block (sc_cxt sc)) eqn:T11.
  { apply andb_prop in T11 as [T11 _]. apply sim_block_scalar_at; [exact S|exact T11]. }
  destruct (at_is b 0 39 || at_is b 0 34) eqn:T12; [apply sim_flow_scalar; exact S|].
  destruct (is_plain_scalar b (sc_cxt sc)) eqn:T13; [|exact Logic.I].
  apply sim_plain_at; [exact S|]. fold b sc.
  unfold is_plain_scalar in T13.
  destruct (is_wsZ b) eqn:W; [discriminate|]. destruct b as [|x r] eqn:Eb; [discriminate|].
  repeat split; auto.
  - unfold is_doc_indicator. rewrite <- andb_assoc, andb_comm, <- andb_assoc, (andb_comm (is_wsZ_at _ 3)). exact T2.
  - unfold at_is. cbn [nth_error]. destruct (x =? 35)%N eqn:X; [|reflexivity].
    rewrite !orb_true_r in T13. cbn [orb] in T13. discriminate.
  - unfold plain_end. unfold is_block. rewrite negb_involutive.
    unfold is_flow_ind_at. cbn [nth_error]. unfold is_flow_ind_byte. unfold at_is in T3, T4, T5, T8 |- *. cbn [nth_error] in T3, T4, T5, T8 |- *.
    apply orb_false_elim in T3 as [-> ->]. apply orb_false_elim in T4 as [-> ->]. rewrite T5.
    cbn [orb]. rewrite andb_false_r, orb_false_r.
    destruct (x =? 58)%N; [|reflexivity]. cbn [andb] in *. apply orb_false_elim in T8 as [-> _]. reflexivity.
Qed.

Lemma sim_next : sim (scan_next_token EG) (scan_next_token LZ).
Proof.
  unfold scan_next_token. apply sim_sc. intros sc. 
  assert (K : sim (sc_eat_whitespace EG ;; expire_stale_saved_key ;; do sc0 <- get_sc;
     unroll_indent (Some (scol (sc_st sc0))) ;; pop_zero_indent_sequence ;; do b <- get_buf; do sc1 <- get_sc;
     if is_empty b || match sc_state sc1 with SDone => true | _ => false end then fetch_stream_end
     else mlift (cache EG b 4) ;; dispatch EG)
    (sc_eat_whitespace LZ ;; expire_stale_saved_key ;; do sc0 <- get_sc;
     unroll_indent (Some (scol (sc_st sc0))) ;; pop_zero_indent_sequence ;; do b <- get_buf; do sc1 <- get_sc;
     if is_empty b || match sc_state sc1 with SDone => true | _ => false end then fetch_stream_end
     else mlift (cache LZ b 4) ;; dispatch LZ)).
  { apply sim_bind; [apply sim_eat|intros _]. apply sim_bind; [apply sim_expire|intros _]. apply sim_sc. intros c.
    apply sim_bind; [apply sim_unroll|intros _]. apply sim_bind; [apply sim_zero|intros _]. apply sim_buf. intros b _. apply sim_sc. intros c2.
    destruct (is_empty b || _); [apply sim_end|]. change (cache LZ b 4) with (cache EG b 4).
    apply sim_bind; [apply sim_lift|intros _]. apply sim_dispatch. }
  destruct (sc_state sc); [apply sim_start|exact K|exact K].
Qed.

(** ** The reader *)
Lemma round_rel base sc q q' sc1 q1 : good base -> qrel q q' -> scan_round EG base sc q = (sc1, q1, Ok tt) ->
  exists q1', scan_round LZ base sc q' = (sc1, q1', Ok tt) /\ qrel q1 q1'.
Proof.
  intros G Q. unfold scan_round, get_from. destruct (is_boundary base (sc_offset sc)); [|discriminate].
  assert (S : msim (mkMs (skipn (sc_offset sc) base) sc q) (mkMs (skipn (sc_offset sc) base) sc q')).
  { split; [reflexivity|]. split; [reflexivity|]. split; [exact Q|]. apply good_skipn. exact G. }
  pose proof (sim_next _ _ S) as X. unfold sim_at in X.
  destruct (scan_next_token EG _) as [s [[]| | |]]; try discriminate.
  destruct X as (s1' & -> & (B & C & Q1 & _)). intros E. exists (m_q s1').
  assert (sc1 = set_offset (List.length base - List.length (m_buf s)) (m_sc s)) as -> by congruence.
  assert (q1 = m_q s) as -> by congruence. rewrite B, C. split; [reflexivity|exact Q1].
Qed.
Lemma loop_rel fuel : forall base start sc q q' sc1 q1, good base -> qrel q q' ->
  scan_loop fuel EG base start sc q = (sc1, q1, Ok tt) ->
  exists q1', scan_loop fuel LZ base start sc q' = (sc1, q1', Ok tt) /\ qrel q1 q1'.
Proof.
  induction fuel as [|fuel IH]; intros base start sc q q' sc1 q1 G Q E; cbn [scan_loop] in *.
  all: assert (W : want_more start sc q' = want_more start sc q) by (unfold want_more; rewrite (qrel_len _ _ Q); reflexivity).
  all: rewrite W; destruct (want_more start sc q).
  1, 3: try discriminate.
  - destruct (scan_round EG base sc q) as [[sc2 q2] [[]| | |]] eqn:R; try discriminate.
    destruct (round_rel _ _ _ _ _ _ G Q R) as (q2' & -> & Q2). apply (IH _ _ _ _ _ _ _ G Q2 E).
  - exists q'. assert (sc1 = sc) as -> by congruence. assert (q1 = q) as -> by congruence. split; [reflexivity|exact Q].
  - exists q'. assert (sc1 = sc) as -> by congruence. assert (q1 = q) as -> by congruence. split; [reflexivity|exact Q].
Qed.

Definition rrel (t : str) (r r' : reader) : Prop :=
  r_in r = Borrow t /\ r_in r' = Borrow t /\ lazy_mode (r_opts r) = false /\ lazy_mode (r_opts r') = true /\
  r_sc r' = r_sc r /\ r_exhausted r' = r_exhausted r /\ qrel (r_q r) (r_q r').
Lemma reader_rel t r r' r1 : good t -> rrel t r r' -> reader_scan r = (r1, Ok tt) ->
  exists r1', reader_scan r' = (r1', Ok tt) /\ rrel t r1 r1'.
Proof.
  intros G (I & I' & L & L' & C & X & Q). unfold reader_scan. rewrite I, I'. unfold drive, no_extend. rewrite L, L', C. unfold scan_tokens.
  rewrite (qrel_len _ _ Q).
  destruct (scan_loop _ EG t _ (r_sc r) (r_q r)) as [[sc1 q1] [[]| | |]] eqn:E; cbn [map_err]; intros H; try (exfalso; congruence).
  destruct (loop_rel _ _ _ _ _ _ _ _ G Q E) as (q1' & -> & Q1). cbn [map_err].
  eexists. split; [reflexivity|].
  match type of H with (?x, _) = _ => assert (r1 = x) as -> by congruence end.
  unfold rrel. cbn [r_in r_opts r_sc r_exhausted r_q]. rewrite (qrel_len _ _ Q1). repeat split; try assumption; apply Q1.
Qed.
Lemma consumes_rel t s : good t -> forall r r', rrel t r r' -> forall l r1, consumes r s = (l, Ok r1) ->
  exists l' r1', consumes r' s = (l', Ok r1') /\ Forall2 erel l l' /\ rrel t r1 r1'.
Proof.
  intros G. induction s as [|[|] s IH]; intros r r' R l r1 E; cbn [consumes] in *.
  - exists [], r'. assert (l = []) as -> by congruence. assert (r1 = r) as -> by congruence.
    split; [reflexivity|]. split; [constructor|exact R].
  - destruct (reader_scan r) as [r2 [[]| | |]] eqn:S; try (exfalso; congruence).
    destruct (reader_rel _ _ _ _ G R S) as (r2' & -> & R2). apply (IH _ _ R2 _ _ E).
  - pose proof R as (I & I' & L & L' & C & X & Q). pose proof (pop_rel _ _ Q) as P.
    destruct (q_pop entry_cmp (r_q r)) as [[e|] q1].
    + destruct P as (e' & q1' & -> & ER & Q1).
      destruct (consumes (mkReader _ q1 _ _ _) s) as [l2 x2] eqn:E2. assert (x2 = Ok r1) as -> by congruence.
      assert (RR : rrel t (mkReader (r_sc r) q1 (r_opts r) (r_exhausted r) (r_in r)) (mkReader (r_sc r') q1' (r_opts r') (r_exhausted r') (r_in r')))
        by (unfold rrel; cbn [r_in r_opts r_sc r_exhausted r_q]; repeat split; try assumption; apply Q1).
      destruct (IH _ _ RR _ _ E2) as (l2' & r1' & -> & F & R1).
      assert (l = e :: l2) as -> by congruence. exists (e' :: l2'), r1'. split; [reflexivity|]. split; [constructor; assumption|exact R1].
    + destruct P as (q1' & -> & Q1).
      destruct (consumes (mkReader _ q1 _ _ _) s) as [l2 x2] eqn:E2. assert (x2 = Ok r1) as -> by congruence.
      assert (RR : rrel t (mkReader (r_sc r) q1 (r_opts r) (r_exhausted r) (r_in r)) (mkReader (r_sc r') q1' (r_opts r') (r_exhausted r') (r_in r')))
        by (unfold rrel; cbn [r_in r_opts r_sc r_exhausted r_q]; repeat split; try assumption; apply Q1).
      destruct (IH _ _ RR _ _ E2) as (l2' & r1' & -> & F & R1).
      assert (l = l2) as -> by congruence. exists l2', r1'. split; [reflexivity|]. split; [assumption|exact R1].
Qed.

(** Up to an error of the eager reader the lazy reader delivers the same. *)
Lemma consumes_prefix t s : good t -> forall r r', rrel t r r' ->
  let (l, x) := consumes r s in let (l', x') := consumes r' s in
  exists a b, l' = a ++ b /\ Forall2 erel l a /\ forall r1, x = Ok r1 -> b = [] /\ exists r1', x' = Ok r1'.
Proof.
  intros G. induction s as [|[|] s IH]; intros r r' R; cbn [consumes].
  - exists [], []. split; [reflexivity|]. split; [constructor|]. intros r1 _. eauto.
  - destruct (reader_scan r) as [r2 [[]| | |]] eqn:S.
    + destruct (reader_rel _ _ _ _ G R S) as (r2' & -> & R2). apply (IH _ _ R2).
    + match goal with |- let (_, _) := ?x in _ => destruct x as [l' x'] end. exists [], l'. split; [reflexivity|]. split; [constructor|discriminate].
    + match goal with |- let (_, _) := ?x in _ => destruct x as [l' x'] end. exists [], l'. split; [reflexivity|]. split; [constructor|discriminate].
    + match goal with |- let (_, _) := ?x in _ => destruct x as [l' x'] end. exists [], l'. split; [reflexivity|]. split; [constructor|discriminate].
  - pose proof R as (I & I' & L & L' & C & X & Q). pose proof (pop_rel _ _ Q) as P.
    destruct (q_pop entry_cmp (r_q r)) as [[e|] q1].
    + destruct P as (e' & q1' & -> & ER & Q1).
      assert (RR : rrel t (mkReader (r_sc r) q1 (r_opts r) (r_exhausted r) (r_in r)) (mkReader (r_sc r') q1' (r_opts r') (r_exhausted r') (r_in r')))
        by (unfold rrel; cbn [r_in r_opts r_sc r_exhausted r_q]; repeat split; try assumption; apply Q1).
      specialize (IH _ _ RR). destruct (consumes (mkReader _ q1 _ _ _) s) as [l2 x2], (consumes (mkReader _ q1' _ _ _) s) as [l2' x2'].
      destruct IH as (a & b & -> & F & H). exists (e' :: a), b. split; [reflexivity|]. split; [constructor; assumption|exact H].
    + destruct P as (q1' & -> & Q1).
      assert (RR : rrel t (mkReader (r_sc r) q1 (r_opts r) (r_exhausted r) (r_in r)) (mkReader (r_sc r') q1' (r_opts r') (r_exhausted r') (r_in r')))
        by (unfold rrel; cbn [r_in r_opts r_sc r_exhausted r_q]; repeat split; try assumption; apply Q1).
      specialize (IH _ _ RR). destruct (consumes (mkReader _ q1 _ _ _) s) as [l2 x2], (consumes (mkReader _ q1' _ _ _) s) as [l2' x2'].
      destruct IH as (a & b & -> & F & H). exists a, b. split; [reflexivity|]. split; [assumption|exact H].
Qed.
Lemma erel_stands e e' : erel e e' -> stands_for e e'.
Proof. intros (R & t & E & V). split; [exact R|]. exists t. rewrite E. split; [reflexivity|exact V]. Qed.
Theorem deferred_stream t o o' s : ascii t -> no_double t -> lazy_mode o = false -> lazy_mode o' = true ->
  let (l, x) := consumes (open t o) s in let (l', x') := consumes (open t o') s in
  exists a b, l' = a ++ b /\ Forall2 stands_for l a /\ forall r, x = Ok r -> b = [] /\ exists r', x' = Ok r'.
Proof.
  intros A D L L'. assert (R : rrel t (open t o) (open t o')).
  { unfold rrel, open, reader_new. cbn [r_in r_opts r_sc r_exhausted r_q]. repeat split; try assumption. constructor. }
  pose proof (consumes_prefix t s (conj A D) _ _ R) as H. destruct (consumes (open t o) s) as [l x], (consumes (open t o') s) as [l' x'].
  destruct H as (a & b & E & F & X). exists a, b. split; [exact E|]. split; [|exact X].
  clear - F. induction F; constructor; [apply erel_stands; assumption|assumption].
Qed.
