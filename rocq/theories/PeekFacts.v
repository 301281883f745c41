(** The one token lookahead of [PeekReader] is transparent. *)
From Verif Require Import Reader BaseFacts.
From Coq Require Import Lia.

Lemma extract_len (T : Type) (c : T -> T -> comparison) l : forall x m r,
  extract T c x l = (m, r) -> List.length r = List.length l.
Proof.
  induction l as [|y l IH]; intros x m r; cbn [extract].
  - intros E; injection E as <- <-; reflexivity.
  - destruct (extract T c y l) as [m' r'] eqn:E'. specialize (IH _ _ _ E').
    destruct (q_lt T c m' x); intros E; injection E as <- <-; cbn; congruence.
Qed.

(** Popping an empty queue. *)
Lemma pop_empty (q : tokens) e q' : q_pop entry_cmp q = (e, q') ->
  match e with None => q' = q /\ q_len q = 0 | Some _ => q_len q = S (q_len q') end.
Proof.
  unfold q_pop, q_len. destruct (q_heap q) as [|x l] eqn:H.
  - intros E; injection E as <- <-. auto.
  - destruct (extract _ _ x l) as [m r] eqn:X. intros E; injection E as <- <-.
    cbn. rewrite (extract_len _ _ _ _ _ _ X). reflexivity.
Qed.

(** A successful scan of an empty queue that adds nothing exhausts the reader. *)
Lemma scan_exhausts r r' : q_len (r_q r) = 0 -> reader_scan r = (r', Ok tt) ->
  q_len (r_q r') = 0 -> r_exhausted r' = true.
Proof.
  intros E S Z. unfold reader_scan in S.
  destruct (drive _ _ _ _) as [[[i sc] q] x]. injection S as <- ->. cbn in *.
  rewrite E, Z. reflexivity.
Qed.

Lemma look_then_pop p p' x : pk_look p = (p', Ok x) ->
  snd (pk_pop p) = Ok x /\ pk_pop p' = pk_pop p /\ pk_look p' = (p', Ok x) /\ pk_peek p' = x.
Proof.
  destruct p as [[e|] r]; unfold pk_look, pk_pop; cbn [pk_peek pk_reader].
  - intros E; injection E as <- <-. auto.
  - destruct (reader_exhausted r) eqn:X.
    { intros E; injection E as <- <-. cbn [pk_peek pk_reader]. rewrite X. auto. }
    unfold take_next. cbn [pk_peek pk_reader].
    set (c := if Nat.eqb _ _ then _ else _).
    assert (C : c = (if Nat.eqb (q_len (r_q r)) 0 then reader_scan r else (r, Ok tt)))
      by reflexivity. clearbody c.
    destruct c as [r1 [[]|er| |]]; try discriminate.
    destruct (q_pop entry_cmp (r_q r1)) as [[e|] q] eqn:Q; cbn [pk_peek pk_reader];
      intros E; injection E as <- <-; cbn [pk_peek pk_reader]; [auto|].
    destruct (pop_empty _ _ _ Q) as [-> Z].
    assert (E1 : r_exhausted r1 = true).
    { destruct (Nat.eqb (q_len (r_q r)) 0) eqn:N.
      - apply Nat.eqb_eq in N. symmetry in C. exact (scan_exhausts _ _ N C Z).
      - injection C as ->. apply Nat.eqb_neq in N. contradiction. }
    assert (R : reader_exhausted (mkReader (r_sc r1) (r_q r1) (r_opts r1) (r_exhausted r1) (r_in r1))
                = true).
    { unfold reader_exhausted. cbn. rewrite E1, Z. reflexivity. }
    rewrite R. auto.
Qed.

Lemma look_fails p p' (x : rres (option entry)) :
  (forall e, x <> Ok e) -> pk_look p = (p', x) <-> pk_pop p = (p', x).
Proof.
  intros N. destruct p as [[e|] r]; unfold pk_look, pk_pop; cbn [pk_peek pk_reader].
  - split; intros E; injection E as <- <-; exfalso; apply (N _ eq_refl).
  - destruct (reader_exhausted r).
    + split; intros E; injection E as <- <-; exfalso; apply (N _ eq_refl).
    + destruct (take_next _) as [p1 [[]|er| |]]; try reflexivity.
      split; intros E; injection E as <- <-; exfalso; apply (N _ eq_refl).
Qed.

(** ** Schedules *)

(** A consumer asks to look or to take; after a failure it stops. *)
Inductive ask := Look | Take.
Fixpoint served (p : peek_reader) (asks : list ask) : list (ask * rres (option entry)) :=
  match asks with
  | [] => []
  | a :: r =>
      let (p', x) := match a with Look => pk_look p | Take => pk_pop p end in
      (a, x) :: match x with Ok _ => served p' r | _ => [] end
  end.

(** What taking only gives. *)
Definition taken (p : peek_reader) (n : nat) : list (rres (option entry)) :=
  map snd (served p (repeat Take n)).

(** Answers explained by a stream: each answer is the head of what is left, taking
    removes it. *)
Fixpoint explained (answers : list (ask * rres (option entry)))
  (stream : list (rres (option entry))) : Prop :=
  match answers with
  | [] => True
  | (a, x) :: r =>
      match stream with
      | [] => False
      | y :: s => x = y /\ explained r (match a with Look => stream | Take => s end)
      end
  end.

Lemma explained_served asks : forall p n, List.length asks <= n ->
  explained (served p asks) (taken p n).
Proof.
  induction asks as [|a asks IH]; intros p n L; [exact Logic.I|].
  destruct n as [|n]; [cbn in L; lia|]. cbn in L.
  unfold taken. cbn [served repeat map].
  destruct a.
  - destruct (pk_look p) as [p' x] eqn:K.
    destruct (pk_pop p) as [p2 y] eqn:Q.
    assert (OkCase : forall e, x = Ok e -> y = Ok e /\ pk_pop p' = (p2, y)).
    { intros e ->. destruct (look_then_pop _ _ _ K) as (A & B & _). rewrite Q in A, B. auto. }
    destruct x as [e|er| |]; cbn [explained map snd].
    + destruct (OkCase e eq_refl) as [-> B]. split; [reflexivity|].
      specialize (IH p' (S n) ltac:(lia)). unfold taken in IH. cbn [served repeat map] in IH.
      rewrite B in IH. exact IH.
    + apply look_fails in K; [|discriminate]. rewrite Q in K. injection K as -> ->.
      split; [reflexivity|exact Logic.I].
    + apply look_fails in K; [|discriminate]. rewrite Q in K. injection K as -> ->.
      split; [reflexivity|exact Logic.I].
    + apply look_fails in K; [|discriminate]. rewrite Q in K. injection K as -> ->.
      split; [reflexivity|exact Logic.I].
  - destruct (pk_pop p) as [p' x]. cbn [explained map snd].
    destruct x as [e|er| |]; cbn [map snd explained]; (split; [reflexivity|]); try exact Logic.I.
    apply (IH p' n). lia.
Qed.

(** [consume] drops what is looked at. *)
Lemma consume_after_look p p' x : pk_look p = (p', Ok x) ->
  pk_consume p' = (fst (pk_pop p), match x with Some _ => true | None => false end).
Proof.
  intros K. destruct (look_then_pop _ _ _ K) as (A & B & C & D).
  unfold pk_consume. rewrite D. f_equal. rewrite <- B.
  unfold pk_pop. rewrite D. destruct x; [reflexivity|].
  unfold pk_look in C. rewrite D in C.
  destruct (reader_exhausted (pk_reader p')); [destruct p'; cbn in *; subst; reflexivity|].
  destruct (take_next p') as [p1 [[]|er| |]]; try discriminate. injection C as -> C.
  reflexivity.
Qed.
