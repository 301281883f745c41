(** Token sequences that correspond give events that correspond. *)
From Verif Require Export SpecTape.
From Coq Require Import Lia.
Open Scope nat_scope.

Definition scalar_of (m : maybe_token) : option scalar_like :=
  match m with Tok (TScalar c k) => Some (Eager c k) | Lazy d => Some (LazyS d) | _ => None end.
Definition plainly (t : token) : Prop := match t with TScalar _ _ => False | _ => True end.
Definition scan_failure (e : parse_error) : Prop := exists s, e = ParserScan s.

Section EventSim.
  (** Corresponding positions and scalars; whether failures of the scanner correspond. *)
  Variable M : nat -> nat -> Prop.
  Variable D : scalar_like -> scalar_like -> Prop.
  Variable strict : bool.
  Hypothesis D_empty : D empty_scalar_like empty_scalar_like.

  Definition like (e e' : entry) : Prop :=
    M (e_read e) (e_read e') /\
    match scalar_of (e_wrap e), scalar_of (e_wrap e') with
    | Some s, Some s' => D s s'
    | None, None => e_wrap e' = e_wrap e
    | _, _ => False
    end.
  Lemma like_cases e e' : like e e' -> M (e_read e) (e_read e') /\ e_marker e' = e_marker e /\
    ((exists t, e_wrap e = Tok t /\ e_wrap e' = Tok t /\ plainly t) \/
     (exists s s', scalar_of (e_wrap e) = Some s /\ scalar_of (e_wrap e') = Some s' /\ D s s')).
  Proof.
    intros (R & H). split; [exact R|]. unfold e_marker. destruct (e_wrap e) as [t|d], (e_wrap e') as [t'|d'].
    - assert (K : scalar_of (Tok t) = None /\ plainly t \/ exists c k, t = TScalar c k) by (destruct t; cbn; eauto).
      destruct K as [[K PL]|(c & k & ->)].
      + rewrite K in H. assert (E : Tok t' = Tok t) by (destruct (scalar_of (Tok t')); [destruct H|exact H]). injection E as ->. split; [reflexivity|]. left. eauto.
      + destruct t'; cbn [scalar_of] in H; try contradiction. split; [reflexivity|]. right. cbn. eauto.
    - destruct t; cbn [scalar_of] in H; try contradiction. split; [reflexivity|]. right. cbn. eauto.
    - destruct t'; cbn [scalar_of] in H; try contradiction. split; [reflexivity|]. right. cbn. eauto.
    - cbn in *. split; [reflexivity|]. right. eauto.
  Qed.

  Definition data_like (d d' : event_data) : Prop :=
    match d, d' with EvScalar n s, EvScalar n' s' => n' = n /\ D s s' | _, _ => d' = d end.
  Definition event_like (e e' : event) : Prop :=
    M (ev_start e) (ev_start e') /\ M (ev_end e) (ev_end e') /\ data_like (ev_data e) (ev_data e').
  Fixpoint answers_like (l l' : list (pres (option event))) : Prop :=
    match l, l' with
    | [], [] => True
    | Ok (Some e) :: r, Ok (Some e') :: r' => event_like e e' /\ answers_like r r'
    | Ok None :: _, x :: _ => x = Ok None
    | Err e :: _, x :: _ => strict = false /\ scan_failure e \/ x = Err e
    | Panic :: _, _ :: _ | Fuel :: _, _ :: _ => True
    | _, _ => False
    end.

  Definition linked (t t' : tape) : Prop :=
    exists a b, fst t' = a ++ b /\ Forall2 like (fst t) a /\ (snd t = Ok tt -> b = [] /\ snd t' = Ok tt) /\
      (forall e, snd t = Err e -> strict = false /\ (exists s, e = RScan s) \/ b = [] /\ snd t' = Err e).
  Definition agrees {A} (Q : A -> A -> Prop) (a b : parser * tape * pres A) : Prop :=
    match snd a with
    | Ok x => exists y, snd b = Ok y /\ Q x y /\ fst (fst b) = fst (fst a) /\ linked (snd (fst a)) (snd (fst b))
    | Err e => strict = false /\ scan_failure e \/ snd b = Err e
    | _ => True
    end.
  Definition rsim {A} (Q : A -> A -> Prop) (m1 m2 : P tape A) : Prop :=
    forall p t t', linked t t' -> agrees Q (m1 p t) (m2 p t').
  Notation esim := (rsim eq).

  Lemma rsim_bind {A B} (Q : A -> A -> Prop) (Q' : B -> B -> Prop) m1 m2 (k1 k2 : A -> P tape B) :
    rsim Q m1 m2 -> (forall x y, Q x y -> rsim Q' (k1 x) (k2 y)) -> rsim Q' (pbind tape m1 k1) (pbind tape m2 k2).
  Proof.
    intros MM K p t t' L. unfold pbind. specialize (MM p t t' L). unfold agrees in MM.
    destruct (m1 p t) as [[p1 t1] [x|e| |]]; cbn [fst snd] in MM; try exact Logic.I.
    - destruct MM as (y & E & R & EP & L'). destruct (m2 p t') as [[p2 t2] z]. cbn [fst snd] in *. subst. apply K; assumption.
    - destruct MM as [H|H]; [left; exact H|right]. destruct (m2 p t') as [[p2 t2] z]. cbn [fst snd] in *. subst. reflexivity.
  Qed.
  Lemma esim_bind {A B} (Q' : B -> B -> Prop) m1 m2 (k1 k2 : A -> P tape B) :
    esim m1 m2 -> (forall x, rsim Q' (k1 x) (k2 x)) -> rsim Q' (pbind tape m1 k1) (pbind tape m2 k2).
  Proof. intros H K. eapply rsim_bind; [exact H|]. intros x y <-. apply K. Qed.
  Lemma rsim_ret {A} (Q : A -> A -> Prop) a b : Q a b -> rsim Q (pret tape a) (pret tape b).
  Proof. intros H p t t' L. exists b. cbn. auto. Qed.
  Lemma rsim_fail {A} (Q : A -> A -> Prop) e : rsim Q (pfail tape (Err e)) (pfail tape (Err e)).
  Proof. intros p t t' L. right. reflexivity. Qed.
  Lemma rsim_panic {A} (Q : A -> A -> Prop) m : rsim Q (pfail tape Panic) m.
  Proof. intros p t t' L. exact Logic.I. Qed.
  Lemma rsim_fuel {A} (Q : A -> A -> Prop) m : rsim Q (pfail tape Fuel) m.
  Proof. intros p t t' L. exact Logic.I. Qed.
  Lemma rsim_upd f : esim (pupd tape f) (pupd tape f).
  Proof. intros p t t' L. exists tt. cbn. auto. Qed.
  Lemma rsim_get {A} (f : parser -> A) : esim (fun p r => (p, r, Ok (f p))) (fun p r => (p, r, Ok (f p))).
  Proof. intros p t t' L. exists (f p). cbn. auto. Qed.

  Definition both {A} (Q : A -> A -> Prop) (a b : option A) : Prop :=
    match a, b with Some e, Some e' => Q e e' | None, None => True | _, _ => False end.
  Definition marked {A} (a b : nat * A) : Prop := M (fst a) (fst b) /\ snd b = snd a.
  Lemma linked_next t t' : linked t t' ->
    match tape_next t with
    | Ok x => exists y, tape_next t' = Ok y /\ both like x y /\ linked (tl (fst t), snd t) (tl (fst t'), snd t')
    | Err e => strict = false /\ (exists s, e = RScan s) \/ tape_next t' = Err e
    | _ => True
    end.
  Proof.
    intros (a & b & E & F & X & Y). unfold tape_next. destruct t as [l x], t' as [l' x']. cbn [fst snd] in *. subst l'.
    destruct F as [|e e' l a R F]; cbn [app tl].
    - destruct x as [[]|e| |]; cbn [tape_end]; auto.
      + destruct (X eq_refl) as (-> & ->). exists None. cbn. split; [reflexivity|]. split; [exact Logic.I|].
        exists [], []. cbn. split; [reflexivity|]. split; [constructor|]. split; [auto|]. discriminate.
      + destruct (Y e eq_refl) as [Z|(-> & ->)]; [left; exact Z|right; reflexivity].
    - exists (Some e'). split; [reflexivity|]. split; [exact R|]. exists a, b. auto.
  Qed.
  Lemma rsim_peek_opt : rsim (both like) (peek_opt tape tape_source) (peek_opt tape tape_source).
  Proof.
    intros p t t' L. pose proof (linked_next t t' L) as H. unfold agrees, peek_opt. cbn [ts_look tape_source fst snd].
    destruct (tape_next t) as [x|e| |]; cbn [map_err]; auto.
    - destruct H as (y & -> & R & _). exists y. cbn. auto.
    - destruct H as [(Z & s & ->)| ->]; [left; split; [exact Z|exists s; reflexivity]|right; reflexivity].
  Qed.
  Lemma rsim_take : rsim (both like) (fun p t => let (t', x) := ts_pop tape_source t in (p, t', map_err parse_error_of_reader x))
    (fun p t => let (t', x) := ts_pop tape_source t in (p, t', map_err parse_error_of_reader x)).
  Proof.
    intros p t t' L. pose proof (linked_next t t' L) as H. unfold agrees. cbn [ts_pop tape_source fst snd].
    destruct (tape_next t) as [x|e| |]; cbn [map_err]; auto.
    - destruct H as (y & -> & R & LL). exists y. cbn. auto.
    - destruct H as [(Z & s & ->)| ->]; [left; split; [exact Z|exists s; reflexivity]|right; reflexivity].
  Qed.
  Lemma rsim_peek : rsim marked (peek tape tape_source) (peek tape tape_source).
  Proof.
    unfold peek. eapply rsim_bind; [apply rsim_peek_opt|]. intros [e|] [e'|] R; try (destruct R; fail); [|apply rsim_fail].
    apply rsim_ret. destruct (like_cases _ _ R) as (HM & K & _). split; [exact HM|exact K].
  Qed.
  Lemma rsim_pop : rsim like (pop tape tape_source) (pop tape tape_source).
  Proof.
    unfold pop. eapply rsim_bind; [apply rsim_take|]. intros [e|] [e'|] R; try (destruct R; fail); [|apply rsim_fail].
    apply rsim_ret. exact R.
  Qed.
  Lemma rsim_consume {B} (Q : B -> B -> Prop) (k1 k2 : nat * token -> P tape B) :
    (forall m m' t, M m m' -> plainly t -> rsim Q (k1 (m, t)) (k2 (m', t))) -> (forall m c k, k1 (m, TScalar c k) = pfail tape Panic) ->
    rsim Q (pbind tape (consume tape tape_source) k1) (pbind tape (consume tape tape_source) k2).
  Proof.
    intros K S p t t' L. unfold consume. pose proof (rsim_pop p t t' L) as H. unfold agrees in H. unfold pbind.
    destruct (pop tape tape_source p t) as [[p1 t1] [e|e| |]]; cbn [fst snd] in H.
    - destruct H as (e' & E & LK & EP & L'). destruct (pop tape tape_source p t') as [[p2 t2] z]. cbn [fst snd] in *. subst.
      destruct (like_cases _ _ LK) as (R & _ & [(t0 & -> & -> & PL)|(s & s' & S1 & _)]); cbn [pret].
      + apply K; assumption.
      + destruct (e_wrap e) as [[]|]; cbn [scalar_of] in S1; try discriminate; unfold pret, pfail; [rewrite S|]; exact Logic.I.
    - destruct H as [H|H]; [left; exact H|right]. destruct (pop tape tape_source p t') as [[p2 t2] z]. cbn [fst snd] in *. subst. reflexivity.
    - exact Logic.I.
    - exact Logic.I.
  Qed.
  Lemma rsim_consume_scalar : rsim (fun a b => M (fst a) (fst b) /\ D (snd a) (snd b)) (consume_scalar tape tape_source) (consume_scalar tape tape_source).
  Proof.
    unfold consume_scalar. eapply rsim_bind; [apply rsim_pop|]. intros e e' LK.
    destruct (like_cases _ _ LK) as (R & _ & [(t0 & -> & -> & PL)|(s & s' & S1 & S2 & DD)]).
    - destruct t0; try apply rsim_panic. destruct PL.
    - destruct (e_wrap e) as [[]|], (e_wrap e') as [[]|]; cbn [scalar_of] in S1, S2; try discriminate;
        injection S1 as <-; injection S2 as <-; apply rsim_ret; (split; [exact R|exact DD]).
  Qed.
  Definition evrel : option event -> option event -> Prop := both event_like.
  Lemma rsim_deliver s s' e e' d : M s s' -> M e e' -> data_like d d -> rsim evrel (deliver tape s e d) (deliver tape s' e' d).
  Proof. intros. apply rsim_ret. repeat split; assumption. Qed.
  Lemma rsim_empty m m' k : M m m' -> rsim evrel (empty_scalar tape m k) (empty_scalar tape m' k).
  Proof. intros H. apply rsim_deliver; [exact H|exact H|]. split; [reflexivity|exact D_empty]. Qed.
  Lemma rsim_checked s s' e e' n b mk mk' : M s s' -> M e e' -> (forall n, data_like (mk n) (mk' n)) -> rsim evrel (checked tape s e n b mk) (checked tape s' e' n b mk').
  Proof.
    intros HS HE H p t t' L. unfold checked, agrees. destruct (validate_tag _ n b); cbn [fst snd]; auto.
    eexists. split; [reflexivity|]. split; [split; [exact HS|split; [exact HE|apply H]]|]. auto.
  Qed.
  Lemma rsim_assert debug b : esim (debug_assert tape debug b) (debug_assert tape debug b).
  Proof. unfold debug_assert. destruct (debug && negb b); [apply rsim_panic|apply rsim_ret; reflexivity]. Qed.
  Lemma rsim_activate d : esim (activate tape d) (activate tape d).
  Proof. unfold activate. apply rsim_upd. Qed.

  (** ** The loops *)
  Lemma rsim_directives n1 : forall n2 e e' seen d, n1 <= n2 -> M e e' ->
    rsim marked (scan_directives tape tape_source n1 e seen d) (scan_directives tape tape_source n2 e' seen d).
  Proof.
    induction n1 as [|n1 IH]; intros n2 e e' seen d L ME; [apply rsim_fuel|]. destruct n2 as [|n2]; [lia|]. cbn [scan_directives].
    eapply rsim_bind; [apply rsim_peek|]. intros [x t] [x' t'] [HM HT]. cbn in HM, HT. subst t'.
    destruct t; try (apply rsim_ret; split; [exact ME|reflexivity]).
    - destruct seen; [apply rsim_fail|]. apply rsim_consume; [|reflexivity]. intros m m' tk MM PL. destruct tk; try apply rsim_panic. apply IH; [lia|exact MM].
    - apply rsim_consume; [|reflexivity]. intros m m' tk MM PL. destruct tk; try apply rsim_panic. destruct (tag_get _ _); [apply rsim_fail|]. apply IH; [lia|exact MM].
  Qed.
  Lemma rsim_ends n1 : forall n2, n1 <= n2 -> esim (skip_document_ends tape tape_source n1) (skip_document_ends tape tape_source n2).
  Proof.
    induction n1 as [|n1 IH]; intros n2 L; [apply rsim_fuel|]. destruct n2 as [|n2]; [lia|]. cbn [skip_document_ends].
    eapply rsim_bind; [apply rsim_peek|]. intros [x t] [x' t'] [HM HT]. cbn in HM, HT. subst t'.
    destruct t; try (apply rsim_ret; reflexivity). eapply rsim_bind; [apply rsim_pop|]. intros _ _ _. apply IH; lia.
  Qed.
  Lemma rsim_budget {B} (Q : B -> B -> Prop) (k1 k2 : nat -> P tape B) : (forall n1 n2, n1 <= n2 -> rsim Q (k1 n1) (k2 n2)) ->
    rsim Q (pbind tape (budget tape tape_source) k1) (pbind tape (budget tape tape_source) k2).
  Proof.
    intros K p t t' L. unfold pbind, budget. apply K; [|exact L]. cbn [ts_budget tape_source].
    destruct L as (a & b & -> & F & _). rewrite app_length. assert (H : List.length (fst t) = List.length a) by (clear - F; induction F; cbn; congruence). lia.
  Qed.
  Definition framed {A} (a b : nat * nat * A) : Prop := M (fst (fst a)) (fst (fst b)) /\ M (snd (fst a)) (snd (fst b)) /\ snd b = snd a.
  Lemma rsim_document_directives : rsim framed (scan_document_directives tape tape_source) (scan_document_directives tape tape_source).
  Proof.
    unfold scan_document_directives. eapply rsim_bind; [apply rsim_peek|]. intros [s m] [s' m'] [HM HT]. cbn in HM, HT. subst m'. apply rsim_budget. intros n1 n2 L.
    eapply rsim_bind; [apply rsim_directives; assumption|]. intros [e d] [e' d'] [HM' HT]. cbn in HM', HT. subst d'. apply rsim_ret. split; [exact HM|split; [exact HM'|reflexivity]].
  Qed.
  Lemma rsim_skip : esim (pbind tape (budget tape tape_source) (fun n => skip_document_ends tape tape_source n)) (pbind tape (budget tape tape_source) (fun n => skip_document_ends tape tape_source n)).
  Proof. apply rsim_budget. intros n1 n2 L. apply rsim_ends; assumption. Qed.
  Lemma rsim_anchor : rsim (both marked) (Parser.fetch_anchor tape tape_source) (Parser.fetch_anchor tape tape_source).
  Proof.
    unfold Parser.fetch_anchor. eapply rsim_bind; [apply rsim_peek_opt|].
    intros x y H. assert (E : option_map e_marker y = option_map e_marker x).
    { destruct x, y; try (destruct H; fail); [|reflexivity]. cbn. f_equal. apply (like_cases _ _ H). }
    rewrite E. destruct (option_map e_marker x) as [[]|]; try (apply rsim_ret; exact Logic.I).
    apply rsim_consume; [|reflexivity]. intros m m' t MM _. destruct t; try apply rsim_panic. apply rsim_ret. split; [exact MM|reflexivity].
  Qed.
  Lemma rsim_tag : rsim (both marked) (Parser.fetch_tag tape tape_source) (Parser.fetch_tag tape tape_source).
  Proof.
    unfold Parser.fetch_tag. eapply rsim_bind; [apply rsim_peek_opt|].
    intros x y H. assert (E : option_map e_marker y = option_map e_marker x).
    { destruct x, y; try (destruct H; fail); [|reflexivity]. cbn. f_equal. apply (like_cases _ _ H). }
    rewrite E. destruct (option_map e_marker x) as [[]|]; try (apply rsim_ret; exact Logic.I).
    apply rsim_consume; [|reflexivity]. intros m m' t MM _. destruct t; try apply rsim_panic. apply rsim_ret. split; [exact MM|reflexivity].
  Qed.
  Lemma mark_or_like {A} m m' (x y : option (nat * A)) : M m m' -> both marked x y -> M (mark_or m x) (mark_or m' y).
  Proof. intros H B. destruct x as [[a c]|], y as [[a' c']|]; try (destruct B; fail); [apply B|exact H]. Qed.
  Lemma snd_like {A} (x y : option (nat * A)) : both marked x y -> option_map snd y = option_map snd x.
  Proof. intros B. destruct x as [[a c]|], y as [[a' c']|]; try (destruct B; fail); [|reflexivity]. cbn. f_equal. apply B. Qed.
  Lemma rsim_properties s s' t : M s s' ->
    rsim (fun a b => M (fst (fst a)) (fst (fst b)) /\ snd (fst b) = snd (fst a) /\ snd b = snd a) (properties tape tape_source s t) (properties tape tape_source s' t).
  Proof.
    intros HM. unfold properties. destruct t; try (apply rsim_ret; cbn; auto).
    - eapply rsim_bind; [apply rsim_anchor|]. intros a a' HA. eapply rsim_bind; [apply rsim_tag|]. intros g g' HG. apply rsim_ret. cbn [fst snd].
      split; [apply mark_or_like; [apply mark_or_like|]; assumption|]. split; apply snd_like; assumption.
    - eapply rsim_bind; [apply rsim_tag|]. intros g g' HG. eapply rsim_bind; [apply rsim_anchor|]. intros a a' HA. apply rsim_ret. cbn [fst snd].
      split; [apply mark_or_like; [apply mark_or_like|]; assumption|]. split; apply snd_like; assumption.
  Qed.

  (** ** The states *)
  Ltac all := repeat (cbv beta zeta; lazymatch goal with
    | |- rsim _ (pbind _ (budget _ _) _) _ => apply rsim_skip
    | |- rsim _ (activate _ _) _ => apply rsim_activate
    | |- rsim _ (debug_assert _ _ _) (debug_assert _ _ ?b) => apply rsim_assert
    | |- rsim _ (deliver _ _ _ _) _ => apply rsim_deliver; [assumption|assumption|reflexivity]
    | |- rsim _ (empty_scalar _ _ _) _ => apply rsim_empty; assumption
    | |- rsim _ (pret _ _) _ => apply rsim_ret; first [reflexivity | exact Logic.I | assumption]
    | |- rsim _ (pfail _ Panic) _ => apply rsim_panic
    | |- rsim _ (pfail _ (Err _)) _ => apply rsim_fail
    | |- rsim _ (pupd _ _) _ => apply rsim_upd
    | |- rsim _ (checked _ _ _ _ _ _) _ => apply rsim_checked; [assumption|assumption|intro; first [reflexivity | split; [reflexivity|exact D_empty]]]
    | |- rsim _ (node_empty _ _ _ _) _ => match goal with H : rsim _ (node_empty _ _ _ _) _ |- _ => apply H end
    | |- rsim _ (parse_node _ _ _ _) _ => match goal with H : forall b k, rsim _ (parse_node _ _ b k) _ |- _ => apply H end
    | |- rsim _ (pbind _ (consume _ _) _) _ => apply rsim_consume; [intros ? ? ? ? _|reflexivity]
    | |- rsim _ (pbind _ (peek _ _) _) _ => eapply rsim_bind; [apply rsim_peek|let H := fresh in intros [? ?] [? ?] [? H]; cbn [fst snd] in *; rewrite ?H; clear H]
    | |- rsim _ (pbind _ (scan_document_directives _ _) _) _ => eapply rsim_bind; [apply rsim_document_directives|let H := fresh in intros [[? ?] ?] [[? ?] ?] (? & ? & H); cbn [fst snd] in *; rewrite ?H; clear H]
    | |- rsim _ (pbind _ (pop _ _) (fun e => debug_assert _ _ _)) _ => eapply rsim_bind; [apply rsim_pop|let E := fresh in intros ? ? E; rewrite (proj1 (proj2 (like_cases _ _ E)))]
    | |- rsim _ (pbind _ (pop _ _) _) _ => eapply rsim_bind; [apply rsim_pop|let E := fresh in intros ? ? E; pose proof (proj1 E)]
    | |- rsim _ (@pbind _ (option event) _ _ _) _ => apply (rsim_bind evrel); [|intros ? ? ?]
    | |- rsim _ (@pbind _ nat _ _ _) _ => apply (rsim_bind M); [|intros ? ? ?]
    | |- rsim _ (pbind _ _ _) _ => apply esim_bind; [|intro]
    | |- rsim _ (fun p r => (p, r, Ok _)) _ => apply rsim_get
    | |- rsim _ (match ?x with _ => _ end) _ => destruct x
    | |- rsim _ (let '_ := ?x in _) _ => destruct x
    | |- rsim _ (if ?x then _ else _) _ => destruct x
    end).
  Notation self m := (rsim evrel m m).
  Lemma rsim_stream_start : self (Parser.stream_start tape tape_source).
  Proof. unfold Parser.stream_start. all. Qed.
  Lemma rsim_stream_end : self (Parser.stream_end tape tape_source).
  Proof. unfold Parser.stream_end. all. Qed.
  Lemma rsim_document_start i f : self (document_start tape tape_source i f).
  Proof. unfold document_start. all. Qed.
  Lemma rsim_document_end : self (document_end tape tape_source).
  Proof. unfold document_end. all. Qed.
  Lemma rsim_node_empty s s' e e' n : M s s' -> M e e' -> rsim evrel (node_empty tape s e n) (node_empty tape s' e' n).
  Proof. intros HS HE. unfold node_empty. all. Qed.
  Lemma rsim_variant b s s' e e' n t : M s s' -> M e e' -> rsim evrel (node_variant tape tape_source b s e n t) (node_variant tape tape_source b s' e' n t).
  Proof.
    intros HS HE. unfold node_variant. pose proof (rsim_node_empty s s' e e' n HS HE). destruct t; try solve [all].
    eapply rsim_bind; [apply rsim_consume_scalar|]. intros [m x] [m' y] [HM HD]. cbn [fst snd] in *. apply esim_bind; [apply rsim_upd|]. intros _.
    apply rsim_checked; [assumption|assumption|]. intros n'. split; [reflexivity|exact HD].
  Qed.
  Lemma rsim_content b k s s' t : M s s' -> rsim evrel (node_content tape tape_source b k s t) (node_content tape tape_source b k s' t).
  Proof.
    intros HM. unfold node_content. eapply rsim_bind; [apply rsim_properties, HM|]. intros [[s1 a] g] [[s2 a'] g'] (H1 & H2 & H3). cbn [fst snd] in *. subst a' g'.
    eapply rsim_bind; [apply rsim_peek|]. intros [e t1] [e' t2] [HE HT]. cbn [fst snd] in *. subst t2. apply rsim_variant; assumption.
  Qed.
  Lemma rsim_node b k : self (parse_node tape tape_source b k).
  Proof.
    unfold parse_node. eapply rsim_bind; [apply rsim_peek|]. intros [s t] [s' t'] [HM HT]. cbn [fst snd] in *. subst t'.
    destruct t; try (apply rsim_content, HM). all.
  Qed.
  Lemma rsim_transition debug : self (state_transition tape tape_source debug).
  Proof.
    pose proof rsim_node as N. unfold state_transition. apply esim_bind; [apply rsim_get|]. intros s.
    destruct s; first [apply rsim_stream_start | apply rsim_stream_end | apply rsim_document_start | apply rsim_document_end | apply rsim_node | idtac].
    - unfold explicit_document_content. all.
    - unfold block_sequence_entry. all.
    - unfold block_mapping_key. all.
    - unfold block_mapping_value. all.
    - unfold flow_sequence_entry, fetch_end. all.
    - unfold flow_sequence_entry_mapping_key. all.
    - unfold flow_sequence_entry_mapping_value. all.
    - unfold flow_sequence_entry_mapping_end. all.
    - unfold flow_mapping_key, fetch_end. all.
    - unfold flow_mapping_value. all.
  Qed.
  Lemma rsim_loop debug n : self (event_loop tape tape_source debug n).
  Proof.
    induction n as [|n IH]; intros p t t' L; cbn [event_loop]; unfold agrees; destruct (ps_done p); cbn [fst snd].
    1, 3: exists None; cbn; auto.
    - exact Logic.I.
    - pose proof (rsim_transition debug p t t' L) as H. unfold agrees in H.
      destruct (state_transition tape tape_source debug p t) as [[p1 t1] x1], (state_transition tape tape_source debug p t') as [[p2 t2] x2].
      cbn [fst snd] in H. destruct x1 as [[e|]|e| |]; cbn [fst snd]; auto.
      + destruct H as ([e'|] & -> & Q & -> & L'); [|destruct Q]. exists (Some e'). cbn. auto.
      + destruct H as ([e'|] & -> & Q & -> & L'); [destruct Q|]. apply (IH p1 t1 t2 L').
      + destruct H as [H| ->]; auto.
  Qed.
  Theorem runs_alike debug n : forall p t t', linked t t' ->
    answers_like (run_events tape_source debug n p t) (run_events tape_source debug n p t').
  Proof.
    induction n as [|n IH]; intros p t t' L; cbn [run_events]; [exact Logic.I|]. unfold next_event.
    pose proof (rsim_loop debug 3 p t t' L) as H. unfold agrees in H.
    destruct (event_loop tape tape_source debug 3 p t) as [[p1 t1] x1], (event_loop tape tape_source debug 3 p t') as [[p2 t2] x2].
    cbn [fst snd] in H. destruct x1 as [[e|]|e| |]; cbn [answers_like]; auto.
    - destruct H as ([e'|] & -> & Q & -> & L'); [|destruct Q]. split; [exact Q|]. apply IH, L'.
    - destruct H as ([e'|] & -> & Q & _); [destruct Q|]. reflexivity.
  Qed.

  (** ** Up to the first failure *)
  Lemma alike_until l : forall l', answers_like (until_failure l) (until_failure l') -> List.length l' = List.length l -> answers_like l l'.
  Proof.
    induction l as [|x l IH]; intros [|x' l'] F L; cbn in L; try discriminate; [exact Logic.I|].
    destruct x as [[e|]|e| |], x' as [[e'|]|e'| |]; cbn [until_failure answers_like] in *; auto; try contradiction.
    split; [apply F|]. apply IH; [apply F|lia].
  Qed.
  Lemma until_alike l : forall l', answers_like l l' -> answers_like (until_failure l) (until_failure l').
  Proof.
    induction l as [|x l IH]; intros l' F; [destruct l'; [exact F|destruct F]|].
    destruct l' as [|x' l']; [destruct x as [[e|]|e| |]; destruct F|].
    destruct x as [[e|]|e| |], x' as [[e'|]|e'| |]; cbn [until_failure answers_like] in *; auto; try contradiction.
    split; [apply F|]. apply IH, F.
  Qed.
End EventSim.
