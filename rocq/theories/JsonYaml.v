(** JSON texts are streams of the grammar. *)
From Verif Require Import BlockLines WhiteFacts SpecJson.
From Coq Require Import Lia ZifyBool ZifyNat ZifyN.
Open Scope nat_scope.

(** ** White space *)
Definition dark (r : str) : Prop := match r with [] => True | c :: _ => (32 < c < 128)%N /\ c <> 35%N end.
Lemma dark_ws r : dark r -> is_blank r = false /\ is_break r = false /\ at_is r 0 35 = false.
Proof.
  destruct r as [|c r]; [repeat split|]. intros [H N]. unfold is_blank, is_break, break_amt, at_is. cbn [nth_error].
  assert (E : (c =? 32)%N = false /\ (c =? 9)%N = false /\ (c =? 13)%N = false /\ (c =? 10)%N = false /\ (c =? 194)%N = false /\ (c =? 226)%N = false /\ (c =? 35)%N = false) by lia.
  destruct E as (-> & -> & -> & -> & -> & -> & ->). repeat split.
Qed.
Lemma dark_white r : dark r -> ~ white r.
Proof. intros D. apply not_white. unfold is_ws. destruct (dark_ws r D) as (-> & -> & _). reflexivity. Qed.

Lemma text_moves w r st : all_ascii (w ++ r) -> Forall (fun c => c <> 10 /\ c <> 13)%N w ->
  reads (w ++ r) st r (mkStats (sread st + List.length w) (slines st) (scol st + List.length w)).
Proof.
  intros A NB. eapply reads_text with (n := List.length w).
  - rewrite app_length. lia.
  - intros k K. assert (S : exists c x, skipn k (w ++ r) = c :: x /\ In c w).
    { rewrite skipn_app. destruct (skipn k w) as [|c x] eqn:E; [apply (f_equal (@List.length N)) in E; rewrite skipn_length in E; cbn in E; lia|].
      exists c, (x ++ skipn (k - List.length w) r). split; [reflexivity|]. rewrite <- (firstn_skipn k w), E. apply in_or_app. right. left. reflexivity. }
    destruct S as (c & x & -> & I). rewrite Forall_forall in NB. destruct (NB c I) as [N1 N2].
    unfold all_ascii in A. rewrite Forall_forall in A. assert (L := A c ltac:(apply in_or_app; left; exact I)). cbn beta in L.
    unfold is_break, break_amt.
    assert (E : (c =? 13)%N = false /\ (c =? 10)%N = false /\ (c =? 194)%N = false /\ (c =? 226)%N = false) by lia.
    destruct E as (-> & -> & -> & ->). reflexivity.
  - apply ascii_bound; [exact A|rewrite app_length; lia].
  - replace (skipn (List.length w) (w ++ r)) with r by (rewrite skipn_app, skipn_all, Nat.sub_diag; reflexivity). apply reads_here.
Qed.

Lemma ws_apart n : forall w r st, List.length w <= n -> ws w -> dark r -> all_ascii (w ++ r) ->
  (exists st', reads (w ++ r) st r st') /\ skips false (w ++ r) r /\ forall k, exists m k', space k m (w ++ r) k' r.
Proof.
  induction n as [|n IH]; intros w r st L W D A.
  - destruct w; [|cbn in L; lia]. cbn [app]. destruct (dark_ws r D) as (B1 & B2 & B3). split; [eexists; apply reads_here|].
    split; [apply sk_end; assumption|]. intros k. exists 0, k. apply sp_end, dark_white, D.
  - destruct w as [|c w]; [apply (IH [] r st); [cbn; lia|constructor|assumption..]|].
    inversion W as [|? ? C W']; subst. inversion A as [|? ? A1 A']; subst. cbn [List.length] in L. cbn in C.
    destruct (N.eq_dec c 32) as [->|N1]; [|destruct (N.eq_dec c 9) as [->|N2]].
    1-2: destruct (IH w r (mkStats (sread st + 1) (slines st) (scol st + 1)) ltac:(lia) W' D A') as ((st' & R) & S & T);
      (split; [exists st'; match goal with |- reads ((?c :: _) ++ _) _ _ _ => apply reads_text with (n := 1) end;
        [cbn; lia|intros [|k] K; [reflexivity|lia]|apply ascii_bound; [exact A|cbn; lia]|exact R]|];
       split; [apply sk_blank; [reflexivity|exact S]|]; intros k; destruct (T (Datatypes.S k)) as (m & k' & Q); exists m, k'; cbn [app]; apply sp_blank; [unfold blank; auto|exact Q]).
    assert (B : exists w1, (c :: w = [10%N] ++ w1 \/ c :: w = [13%N; 10%N] ++ w1 \/ c :: w = [13%N] ++ w1 /\ at_is (w1 ++ r) 0 10 = false)).
    { destruct C as [C|[C|[C|[C|[]]]]]; try congruence; subst c; [exists w; auto|]. destruct w as [|d w2].
      - exists []. right; right. split; [reflexivity|]. destruct r as [|d r]; [reflexivity|]. unfold at_is. cbn. cbn in D. lia.
      - destruct (N.eq_dec d 10) as [->|]; [exists w2; auto|]. exists (d :: w2). right; right. split; [reflexivity|]. unfold at_is. cbn. lia. }
    assert (U : exists u w1, c :: w = u ++ w1 /\ 1 <= List.length u /\ break_amt (c :: w ++ r) = List.length u /\ break_len (c :: w ++ r) = List.length u).
    { destruct B as (w1 & [B|[B|[B H]]]).
      - exists [10%N], w1. rewrite B. injection B as -> ->. repeat split. cbn; lia.
      - exists [13%N; 10%N], w1. rewrite B. injection B as -> ->. repeat split. cbn; lia.
      - exists [13%N], w1. rewrite B. injection B as -> ->. split; [reflexivity|]. split; [cbn; lia|]. unfold break_amt, break_len.
        change ((13 =? 13)%N) with true. change ((13 =? 10)%N) with false. cbv iota. rewrite H. split; [reflexivity|].
        unfold at_is in H. destruct (w1 ++ r) as [|d x]; [reflexivity|]. cbn in H. rewrite H. reflexivity. }
    destruct U as (u & w1 & E & U1 & U2 & U3).
    assert (E' : (c :: w) ++ r = u ++ (w1 ++ r)) by (rewrite E, app_assoc; reflexivity).
    assert (SK : skipn (List.length u) ((c :: w) ++ r) = w1 ++ r) by (rewrite E', skipn_app, skipn_all, Nat.sub_diag; reflexivity).
    assert (W1 : ws w1) by (unfold ws in *; rewrite E in W; apply Forall_app in W; apply W).
    assert (A1' : all_ascii (w1 ++ r)) by (unfold all_ascii in *; change (c :: w ++ r) with ((c :: w) ++ r) in A; rewrite E' in A; apply Forall_app in A; apply A).
    assert (L1 : List.length w1 <= n) by (apply (f_equal (@List.length N)) in E; rewrite app_length in E; cbn in E; lia).
    destruct (IH w1 r (mkStats (sread st + List.length u) (S (slines st)) 0) L1 W1 D A1') as ((st' & R) & S & T).
    assert (IB : is_break ((c :: w) ++ r) = true) by (unfold is_break; cbn [app]; rewrite U2; destruct (List.length u); [lia|reflexivity]).
    change (break_amt ((c :: w) ++ r) = List.length u) in U2. change (break_len ((c :: w) ++ r) = List.length u) in U3.
    split; [|split].
    + exists st'. apply reads_break; [exact IB|apply ascii_bound; [exact A|rewrite U2, E', app_length; lia]|]. rewrite U2, SK. exact R.
    + apply sk_break; [exact IB|]. rewrite U2, SK. exact S.
    + intros k. destruct (T 0) as (m & k' & Q). exists (Datatypes.S m), k'. apply sp_break; [lia|]. rewrite U3, SK. exact Q.
Qed.

Lemma apart_ws w r p : text p = w ++ r -> ws w -> dark r -> all_ascii (text p) -> exists p', text p' = r /\ apart p p'.
Proof.
  destruct p as [t st]. cbn. intros -> W D A. destruct (ws_apart _ w r st (le_n _) W D A) as ((st' & R) & S & _).
  exists (r, st'). split; [reflexivity|]. split; [exact S|exact R].
Qed.
Lemma blank_ws w : Forall (fun c => c = 32 \/ c = 9)%N w -> ws w.
Proof. apply Forall_impl. intros c [-> | ->]; cbn; auto. Qed.
Lemma apart_line w r p : text p = w ++ r -> Forall (fun c => c = 32 \/ c = 9)%N w -> dark r -> all_ascii (text p) ->
  exists p', text p' = r /\ apart p p' /\ line p' = line p /\ offset p' = offset p + List.length w.
Proof.
  destruct p as [t st]. cbn [text fst]. intros -> W D A. exists (r, mkStats (sread st + List.length w) (slines st) (scol st + List.length w)).
  split; [reflexivity|]. split; [|split; reflexivity]. destruct (ws_apart _ w r st (le_n _) (blank_ws w W) D A) as (_ & S & _).
  split; [exact S|]. apply text_moves; [exact A|]. eapply Forall_impl; [|exact W]. cbn. lia.
Qed.
Lemma char_at c r p : text p = c :: r -> exists p', text p' = r /\ char c p p' /\ line p' = line p.
Proof. destruct p as [t st]. cbn [text fst]. intros ->. exists (r, mkStats (S (sread st)) (slines st) (S (scol st))). repeat split. Qed.

(** ** Strings *)
Lemma seen_white c r : (32 < c < 128)%N -> ~ white (c :: r).
Proof.
  intros H. apply not_white. unfold is_ws, is_blank, is_break, break_amt, at_is. cbn [nth_error].
  assert (E : (c =? 32)%N = false /\ (c =? 9)%N = false /\ (c =? 13)%N = false /\ (c =? 10)%N = false /\ (c =? 194)%N = false /\ (c =? 226)%N = false) by lia.
  destruct E as (-> & -> & -> & -> & -> & ->). reflexivity.
Qed.
Lemma char_one c s : all_ascii (encode c ++ s) -> encode c = [c] /\ (c < 128)%N /\ all_ascii s.
Proof.
  unfold all_ascii. rewrite Forall_app. intros [A B]. destruct (QuotedFacts.encode_ascii c) as [L E]; [|auto].
  unfold ascii. exact A.
Qed.
Lemma chars_spaces s v : chars False s v -> all_ascii s -> exists n s' v',
  s = repeat 32%N n ++ s' /\ v = repeat 32%N n ++ v' /\ chars False s' v' /\ forall r, ~ white (s' ++ 34%N :: r).
Proof.
  induction 1 as [|c s v SV L N1 N2 H IH|c x s v I H IH|u n s v (ds & -> & U) SV H IH|? ? ? ? ? ? []]; intros A.
  - exists 0, [], []. split; [reflexivity|]. split; [reflexivity|]. split; [constructor|]. intros r. apply seen_white. lia.
  - destruct (char_one c s A) as (E & C & A'). destruct (N.eq_dec c 32) as [->|N3].
    + destruct (IH A') as (n & s' & v' & -> & -> & H' & W). exists (S n), s', v'. rewrite E. auto.
    + exists 0, (encode c ++ s), (encode c ++ v). split; [reflexivity|]. split; [reflexivity|]. split; [constructor; assumption|].
      intros r. rewrite E. apply seen_white. lia.
  - exists 0, (92%N :: c :: s), (x :: v). split; [reflexivity|]. split; [reflexivity|]. split; [constructor; assumption|]. intros r. apply seen_white. lia.
  - exists 0, ((92%N :: 117%N :: ds) ++ s), (encode n ++ v). split; [reflexivity|]. split; [reflexivity|]. split; [apply ch_unit; [exists ds; split; [reflexivity|exact U]|assumption..]|]. intros r. apply seen_white. lia.
Qed.
Lemma spaces_gap n s : ~ white s -> gap false 0 (repeat 32%N n ++ s) s false.
Proof. intros W. induction n as [|n IH]; [apply gap_end, W|]. cbn. apply gap_blank; [left; reflexivity|exact IH]. Qed.
Lemma chars_quoted n : forall s v r, List.length s < n -> chars False s v -> all_ascii s -> quoted false (s ++ 34%N :: r) v r.
Proof.
  induction n as [|n IH]; intros s v r L H A.
  - lia.
  - destruct H as [|c s v SV LL N1 N2 H|c x s v I H|u m s v (ds & -> & D1 & D2 & D3) SV H|? ? ? ? ? ? []].
    + apply q_close. intros [? _]. discriminate.
    + destruct (char_one c s A) as (E & C & A'). rewrite E in *. cbn [app List.length] in *. destruct (N.eq_dec c 32) as [->|N3].
      * destruct (chars_spaces s v H A') as (m & s' & v' & -> & -> & H' & W).
        change (32%N :: (repeat 32%N m ++ s') ++ 34%N :: r) with ((repeat 32%N (S m) ++ s') ++ 34%N :: r). rewrite <- app_assoc.
        change (32%N :: repeat 32%N m ++ v') with (repeat 32%N (S m) ++ v').
        rewrite app_length in L. apply q_blanks; [discriminate|apply spaces_gap, W|]. apply IH; [lia|exact H'|].
        unfold all_ascii in *. apply Forall_app in A'. apply A'.
      * change (c :: s ++ 34%N :: r) with ([c] ++ (s ++ 34%N :: r)). change (c :: v) with ([c] ++ v). rewrite <- E.
        apply q_char; [exact SV|rewrite E; apply seen_white; lia|exact N1|intros _; exact N2|apply IH; [lia|exact H|exact A']].
    + inversion A as [|? ? _ A1]; subst. inversion A1 as [|? ? _ A2]; subst. cbn [List.length] in L.
      change ((92%N :: c :: s) ++ 34%N :: r) with ([92%N; c] ++ (s ++ 34%N :: r)).
      assert (E : encode x = [x] /\ scalar_value x /\ In (c, x) escape_table).
      { unfold short_escapes in I. cbn in I. repeat (destruct I as [I|I]; [injection I as <- <-; split; [reflexivity|]; split; [unfold scalar_value; lia|cbn; tauto]|]). destruct I. }
      destruct E as (E & SV & T). change (x :: v) with ([x] ++ v). rewrite <- E. apply q_escape; [reflexivity|apply den_letter, T|exact SV|apply IH; [lia|exact H|exact A2]].
    + subst m. rewrite <- app_assoc. unfold all_ascii in A. apply Forall_app in A as [_ A]. apply q_escape; [reflexivity| |exact SV|apply IH; [rewrite app_length in L; cbn in L; lia|exact H|exact A]].
      apply (den_number 117%N 4 ds); [right; left; reflexivity|exact D1|exact D2].
Qed.
Lemma chars_lines s v : chars False s v -> all_ascii s -> Forall (fun c => c <> 10 /\ c <> 13)%N s.
Proof.
  induction 1 as [|c s v SV LL N1 N2 H IH|c x s v I H IH|u m s v (ds & -> & D1 & D2 & D3) SV H IH|? ? ? ? ? ? []]; intros A.
  - constructor.
  - destruct (char_one c s A) as (E & C & A'). rewrite E in *. constructor; [lia|apply IH, A'].
  - inversion A as [|? ? _ A1]; subst. inversion A1 as [|? ? _ A2]; subst. constructor; [lia|]. constructor; [|apply IH, A2].
    cbn in I. repeat (destruct I as [I|I]; [injection I as <- _; lia|]). destruct I.
  - unfold all_ascii in A. apply Forall_app in A as [_ A]. apply Forall_app. split; [|apply IH, A].
    constructor; [lia|]. constructor; [lia|]. eapply Forall_impl; [|exact D2]. unfold hex_digit. lia.
Qed.
Lemma string_scalar t v p r : quoted_string False t v -> text p = t ++ r -> all_ascii (text p) ->
  exists p', text p' = r /\ line p' = line p /\ offset p' = offset p + List.length t /\
    forall flow indent, scalar flow indent p v DoubleQuote p'.
Proof.
  intros (s & -> & H) T A. destruct p as [x st]. cbn [text fst] in *. subst x.
  assert (AS : all_ascii s) by (unfold all_ascii in *; apply Forall_app in A as [A _]; inversion A as [|? ? _ A']; subst; apply Forall_app in A'; apply A').
  exists (r, mkStats (sread st + List.length (34%N :: s ++ [34%N])) (slines st) (scol st + List.length (34%N :: s ++ [34%N]))).
  split; [reflexivity|]. split; [reflexivity|]. split; [reflexivity|]. intros flow indent.
  apply (sc_quoted flow indent _ false (s ++ [34%N] ++ r) v).
  - cbn. rewrite <- app_assoc. reflexivity.
  - apply (chars_quoted _ _ _ _ (Nat.lt_succ_diag_r _) H AS).
  - unfold moves. cbn [fst snd]. apply text_moves; [exact A|]. constructor; [lia|]. apply Forall_app. split; [exact (chars_lines _ _ H AS)|]. constructor; [lia|constructor].
Qed.

(** ** Numbers and literals *)
Definition bare_char (c : N) : Prop := (48 <= c <= 57 \/ 65 <= c <= 90 \/ 97 <= c <= 122 \/ c = 43 \/ c = 45 \/ c = 46)%N.
Definition bare_text (s : str) : Prop := Forall bare_char s /\ exists c x, s = c :: x /\
  ((48 <= c <= 57 \/ 97 <= c <= 122)%N \/ c = 45%N /\ exists d y, x = d :: y /\ (48 <= d <= 57)%N).
Lemma digits_bare s : Forall (fun c => 48 <= c <= 57)%N s -> Forall bare_char s.
Proof. apply Forall_impl. unfold bare_char. lia. Qed.
Lemma number_bare s : number s -> bare_text s.
Proof.
  intros (m & i & f & e & -> & M & I & F & E).
  assert (BF : Forall bare_char f) by (destruct F as [|f [_ F]]; constructor; [unfold bare_char; lia|apply digits_bare, F]).
  assert (BE : Forall bare_char e).
  { destruct E as [|e g x E G [_ D]]; constructor; [unfold bare_char; lia|]. apply Forall_app. split; [|apply digits_bare, D].
    destruct G as [-> |[-> | ->]]; repeat constructor; unfold bare_char; lia. }
  assert (BI : Forall bare_char i) by (destruct I as [|c x C X]; constructor; [unfold bare_char; lia|constructor|unfold bare_char; lia|apply digits_bare, X]).
  assert (HI : exists c x, i = c :: x /\ (48 <= c <= 57)%N) by (destruct I as [|c x C X]; eexists _, _; split; try reflexivity; lia).
  destruct HI as (c & x & -> & C). split.
  - apply Forall_app. split; [destruct M as [-> | ->]; repeat constructor; unfold bare_char; lia|]. apply Forall_app. split; [exact BI|]. apply Forall_app. auto.
  - destruct M as [-> | ->]; cbn [app]; eexists _, _; (split; [reflexivity|]); [left; lia|right]. split; [reflexivity|]. eexists _, _. split; [reflexivity|exact C].
Qed.
Lemma literal_bare s : In s literals -> bare_text s.
Proof.
  intros I. assert (K : forallb (fun c => (97 <=? c) && (c <=? 122))%N s = true /\ s <> []).
  { cbn in I. repeat (destruct I as [<-|I]; [split; [reflexivity|discriminate]|]). destruct I. }
  destruct K as [K NE]. rewrite forallb_forall in K.
  split; [apply Forall_forall; intros c C; specialize (K c C); unfold bare_char; lia|].
  destruct s as [|c x]; [congruence|]. exists c, x. split; [reflexivity|]. left. specialize (K c (or_introl eq_refl)). lia.
Qed.
Definition stops (flow : bool) (r : str) : Prop := exists w q, r = w ++ q /\ ws w /\
  (q = [] \/ flow = true /\ exists c x, q = c :: x /\ In c [44; 93; 125]%N).
Lemma stops_plain flow indent k r : stops flow r -> all_ascii r -> plain flow indent k r [] r.
Proof.
  intros (w & q & -> & W & Q) A. assert (D : dark q).
  { destruct Q as [-> |[_ (c & x & -> & I)]]; [exact Logic.I|]. cbn in I. cbn. repeat (destruct I as [<-|I]; [lia|]). destruct I. }
  destruct w as [|c w].
  - apply pl_end. destruct Q as [-> |[-> (c & x & -> & I)]]; [left; reflexivity|right]. right. split; [reflexivity|]. exists c, x. split; [reflexivity|].
    cbn in *. tauto.
  - destruct (ws_apart _ (c :: w) q (mkStats 0 0 0) (le_n _) W D A) as (_ & _ & S). destruct (S k) as (m & k' & SP).
    apply (pl_stop flow indent k m ((c :: w) ++ q) k' q); [|exact SP|].
    + apply white_iff. inversion W as [|? ? C _]; subst. unfold is_ws. cbn in C.
      destruct C as [<-|[<-|[<-|[<-|[]]]]]; try reflexivity. unfold is_break, break_amt. cbn. destruct (at_is (w ++ q) 0 10); reflexivity.
    + intros (G1 & _ & G2 & _). destruct Q as [-> |[-> (d & x & -> & I)]]; [apply G1; reflexivity|].
      apply G2. right. split; [reflexivity|]. exists d, x. split; [reflexivity|]. cbn in *. tauto.
Qed.
Lemma bare_plain flow indent s : forall k r, Forall bare_char s -> stops flow r -> all_ascii r -> plain flow indent k (s ++ r) s r.
Proof.
  induction s as [|c s IH]; intros k r B S A; [apply stops_plain; assumption|]. inversion B as [|? ? C B']; subst. unfold bare_char in C.
  assert (E : encode c = [c]) by (apply ContentFacts.encode_ascii; lia).
  change (plain flow indent k ([c] ++ (s ++ r)) ([c] ++ s) r). rewrite <- E.
  apply pl_char; [unfold scalar_value; lia|rewrite E; apply seen_white; lia| |apply IH; assumption].
  rewrite E. intros [(x & X & _)|(_ & d & x & X & I)]; injection X as X _; [lia|]. cbn in I. lia.
Qed.
Lemma bare_scalar flow indent s p r : bare_text s -> text p = s ++ r -> all_ascii (text p) -> stops flow r ->
  exists p', text p' = r /\ scalar flow indent p s Plain p'.
Proof.
  intros (B & c & x & E & H) T A S. destruct p as [t st]. cbn [text fst] in T, A. subst t.
  exists (r, mkStats (sread st + List.length s) (slines st) (scol st + List.length s)). split; [reflexivity|].
  assert (AR : all_ascii r) by (unfold all_ascii in *; apply Forall_app in A; apply A).
  assert (C : bare_char c) by (subst s; inversion B; assumption). unfold bare_char in C.
  apply sc_plain.
  - exists c, (x ++ r). cbn [text fst]. split; [subst s; reflexivity|]. split; [subst s; apply seen_white; lia|]. split; [cbn; lia|].
    intros I. assert (c = 45%N) by (cbn in I; lia). destruct H as [H|(_ & d & y & -> & D)]; [lia|].
    split; [discriminate|]. split; [apply seen_white; lia|]. intros _ d' q Q. injection Q as <- _. cbn. lia.
  - intros _. subst s. cbn [text fst]. split; intros (z & Z); cbn in Z; injection Z as -> _; destruct H as [H|[H _]]; lia.
  - intros [_ (z & [Z|Z] & _)]; cbn [text fst] in Z; subst s; cbn in Z; injection Z as -> Z; destruct H as [H|(H & d & y & -> & D)]; try lia; try discriminate.
    injection Z as -> _. lia.
  - apply bare_plain; assumption.
  - unfold moves. cbn [fst snd]. apply text_moves; [exact A|]. eapply Forall_impl; [|exact B]. unfold bare_char. lia.
Qed.

(** ** Values *)
Lemma value_dark h g t v r : is_value h g t v -> dark (t ++ r).
Proof.
  intros H. assert (B : bare_text t -> dark (t ++ r)).
  { intros (_ & c & x & -> & C). cbn. destruct C as [C|[-> _]]; lia. }
  destruct H as [s I|s N|t v (s & -> & _)|w W|t l E|w W|t l M]; cbn [app]; try (cbn; lia); apply B; [apply literal_bare, I|apply number_bare, N].
Qed.
Lemma asc a b : all_ascii (a ++ b) -> all_ascii b.
Proof. unfold all_ascii. intros H. apply Forall_app in H. apply H. Qed.
Lemma asc_tail c a : all_ascii (c :: a) -> all_ascii a.
Proof. intros H. exact (Forall_inv_tail H). Qed.
Lemma no_props hs k p : props hs anywhere k p (bare k) p.
Proof. exists []. split; constructor. Qed.

Scheme value_ind' := Minimality for is_value Sort Prop
  with element_ind' := Minimality for element Sort Prop
  with elements_ind' := Minimality for elements Sort Prop
  with members_ind' := Minimality for members Sort Prop.
Combined Scheme json_ind from value_ind', element_ind', elements_ind', members_ind'.

Section Flow.
  Variable hs : str -> Prop.
  Definition delimited (q : str) : Prop := exists c x, q = c :: x /\ In c [44; 93; 125]%N.
  Lemma delimited_dark q : delimited q -> dark q.
  Proof. intros (c & x & -> & I). cbn in I. cbn. repeat (destruct I as [<-|I]; [lia|]). destruct I. Qed.

  (** From the first character of a value on. *)
  Definition reads_value (t : str) (v : value) : Prop :=
    forall k p p0 r, apart p p0 -> text p0 = t ++ r -> all_ascii (text p0) -> stops true r ->
      exists p', text p' = r /\ flow_body hs (bare k) p (deeds k v) p'.
  Definition reads_element (t : str) (v : value) : Prop :=
    forall k p q, text p = t ++ q -> all_ascii (text p) -> delimited q ->
      exists p' w, text p' = w ++ q /\ ws w /\ flow_node hs k p (deeds k v) p'.
  Definition reads_elements (t : str) (l : list value) : Prop :=
    forall p r, text p = t ++ 93%N :: r -> all_ascii (text p) ->
      exists p', text p' = r /\ flow_seq hs true p (flat_map (deeds Entry) l ++ [CloseSeq]) p'.
  Definition pair_deeds (m : str * value) : list deed := Text (bare Key) (fst m) DoubleQuote :: deeds Value (snd m).
  Definition reads_members (t : str) (l : list (str * value)) : Prop :=
    forall p r, text p = t ++ 125%N :: r -> all_ascii (text p) ->
      exists p', text p' = r /\ flow_map hs true p (flat_map pair_deeds l ++ [CloseMap]) p'.

  Lemma member_key w k n w' p r : ws w -> quoted_string False k n -> near k w' -> text p = w ++ k ++ w' ++ 58%N :: r -> all_ascii (text p) ->
    exists p0 p1, apart p p0 /\ key hs true 0 p0 (Text (bare Key) n DoubleQuote) p1 /\ text p1 = r /\ all_ascii r.
  Proof.
    intros W Q [NB NL] T A. assert (D : dark (k ++ w' ++ 58%N :: r)) by (destruct Q as (s & -> & _); cbn; lia).
    destruct (apart_ws _ _ _ T W D A) as (p0 & T0 & A0). assert (AS0 : all_ascii (text p0)) by (rewrite T0; rewrite T in A; exact (asc _ _ A)).
    destruct (string_scalar _ _ _ _ Q T0 AS0) as (p3 & T3 & L3 & O3 & S3). assert (AS3 : all_ascii (text p3)) by (rewrite T3; rewrite T0 in AS0; exact (asc _ _ AS0)).
    destruct (apart_line _ _ _ T3 NB ltac:(cbn; lia) AS3) as (p4 & T4 & A4 & L4 & O4). assert (AS4 : all_ascii (text p4)) by (rewrite T4; rewrite T3 in AS3; exact (asc _ _ AS3)).
    destruct (char_at _ _ _ T4) as (p1 & T1 & C1 & _).
    exists p0, p1. split; [exact A0|]. split; [|split; [exact T1|rewrite T4 in AS4; exact (asc_tail _ _ AS4)]].
    exists (bare Key), p0, p0, p3, p4. split; [apply no_props|]. split; [|split; [exact (at_scalar true 0 (bare Key) p0 n DoubleQuote p3 (S3 true 0))|]].
    - split; [|apply reads_here]. rewrite T0. destruct (dark_ws _ D) as (B1 & B2 & B3). apply sk_end; assumption.
    - split; [exact A4|]. split; [congruence|]. split; [lia|]. split; [exact C1|discriminate].
  Qed.

  Lemma all_read : (forall t v, is_value False near t v -> reads_value t v) /\ (forall t v, element False near t v -> reads_element t v) /\
    (forall t l, elements False near t l -> reads_elements t l) /\ (forall t l, members False near t l -> reads_members t l).
  Proof.
    apply json_ind.
    - intros s I k p p0 r AP T A S. destruct (bare_scalar true 0 s p0 r (literal_bare s I) T A S) as (p' & T' & SC).
      exists p'. split; [exact T'|]. apply (fb_atom hs (bare k) p p0 _ p' AP). exact (at_scalar true 0 (bare k) p0 s Plain p' SC).
    - intros s I k p p0 r AP T A S. destruct (bare_scalar true 0 s p0 r (number_bare s I) T A S) as (p' & T' & SC).
      exists p'. split; [exact T'|]. apply (fb_atom hs (bare k) p p0 _ p' AP). exact (at_scalar true 0 (bare k) p0 s Plain p' SC).
    - intros t v Q k p p0 r AP T A S. destruct (string_scalar t v p0 r Q T A) as (p' & T' & _ & _ & SC).
      exists p'. split; [exact T'|]. apply (fb_atom hs (bare k) p p0 _ p' AP). exact (at_scalar true 0 (bare k) p0 v DoubleQuote p' (SC true 0)).
    - intros w W k p p0 r AP T A S. cbn [app] in T. rewrite <- app_assoc in T. destruct (char_at _ _ _ T) as (p1 & T1 & C1 & _).
      assert (A1 : all_ascii (text p1)) by (rewrite T1; rewrite T in A; exact (asc_tail _ _ A)).
      destruct (apart_ws w ([93%N] ++ r) p1 T1 W ltac:(cbn; lia) A1) as (p2 & T2 & AP2). destruct (char_at _ _ _ T2) as (p3 & T3 & C3 & _).
      exists p3. split; [exact T3|]. apply (fb_seq hs (bare k) p p0 p1 _ p3 AP C1). exact (fs_end hs true p1 p2 p3 AP2 C3).
    - intros t l E IH k p p0 r AP T A S. cbn [app] in T. rewrite <- app_assoc in T. destruct (char_at _ _ _ T) as (p1 & T1 & C1 & _).
      assert (A1 : all_ascii (text p1)) by (rewrite T1; rewrite T in A; exact (asc_tail _ _ A)).
      destruct (IH p1 r T1 A1) as (p' & T' & F). exists p'. split; [exact T'|]. exact (fb_seq hs (bare k) p p0 p1 _ p' AP C1 F).
    - intros w W k p p0 r AP T A S. cbn [app] in T. rewrite <- app_assoc in T. destruct (char_at _ _ _ T) as (p1 & T1 & C1 & _).
      assert (A1 : all_ascii (text p1)) by (rewrite T1; rewrite T in A; exact (asc_tail _ _ A)).
      destruct (apart_ws w ([125%N] ++ r) p1 T1 W ltac:(cbn; lia) A1) as (p2 & T2 & AP2). destruct (char_at _ _ _ T2) as (p3 & T3 & C3 & _).
      exists p3. split; [exact T3|]. apply (fb_map hs (bare k) p p0 p1 _ p3 AP C1). exact (fm_end hs true p1 p2 p3 AP2 C3).
    - intros t l E IH k p p0 r AP T A S. cbn [app] in T. rewrite <- app_assoc in T. destruct (char_at _ _ _ T) as (p1 & T1 & C1 & _).
      assert (A1 : all_ascii (text p1)) by (rewrite T1; rewrite T in A; exact (asc_tail _ _ A)).
      destruct (IH p1 r T1 A1) as (p' & T' & F). exists p'. split; [exact T'|]. exact (fb_map hs (bare k) p p0 p1 _ p' AP C1 F).
    - intros w t v w' W V IH W' k p q T A D. rewrite <- !app_assoc in T.
      destruct (apart_ws _ _ _ T W (value_dark _ _ _ _ _ V) A) as (p0 & T0 & AP). assert (A0 : all_ascii (text p0)) by (rewrite T0; rewrite T in A; exact (asc _ _ A)).
      destruct (IH k p p0 (w' ++ q) AP T0 A0) as (p' & T' & F); [exists w', q; destruct D as (c & x & -> & I); eauto 10|].
      exists p', w'. split; [exact T'|]. split; [exact W'|]. exact (fn_body hs k (bare k) p p _ p' (no_props hs k p) F).
    - intros t v _ IH p r T A. destruct (IH Entry p (93%N :: r) T A) as (p1 & w & T1 & W & F); [exists 93%N, r; cbn; auto|].
      assert (A1 : all_ascii (text p1)) by (rewrite T in A; rewrite T1; unfold all_ascii in *; apply Forall_app in A as [_ A]; apply Forall_app; split; [eapply Forall_impl; [|exact W]; cbn; lia|exact A]).
      destruct (apart_ws _ _ _ T1 W ltac:(cbn; lia) A1) as (p2 & T2 & AP). destruct (char_at _ _ _ T2) as (p3 & T3 & C & _).
      exists p3. split; [exact T3|]. cbn [flat_map]. rewrite app_nil_r. apply (fs_entry hs p _ p1 _ p3 F). exact (fs_end hs false p1 p2 p3 AP C).
    - intros t v t' l _ IH _ IH' p r T A. rewrite <- app_assoc in T. cbn [app] in T.
      destruct (IH Entry p _ T A) as (p1 & w & T1 & W & F); [eexists _, _; split; [reflexivity|cbn; auto]|].
      assert (A1 : all_ascii (text p1)) by (rewrite T in A; rewrite T1; unfold all_ascii in *; apply Forall_app in A as [_ A]; apply Forall_app; split; [eapply Forall_impl; [|exact W]; cbn; lia|exact A]).
      destruct (apart_ws _ _ _ T1 W ltac:(cbn; lia) A1) as (p2 & T2 & AP). destruct (char_at _ _ _ T2) as (p3 & T3 & C & _).
      assert (A3 : all_ascii (text p3)) by (rewrite T3; rewrite T1 in A1; apply asc in A1; exact (asc_tail _ _ A1)).
      destruct (IH' p3 r T3 A3) as (p' & T' & F'). exists p'. split; [exact T'|]. cbn [flat_map]. rewrite <- app_assoc.
      apply (fs_entry hs p _ p1 _ p' F). exact (fs_comma hs p1 p2 p3 _ p' AP C F').
    - intros w k n w' t v W Q _ G _ IH p r T A. rewrite <- !app_assoc in T. cbn [app] in T.
      destruct (member_key w k n w' p (t ++ 125%N :: r) W Q G T A) as (p0 & p1 & AP0 & K & T1 & A1). rewrite <- T1 in A1.
      destruct (IH Value p1 _ T1 A1) as (p2 & x & T2 & X & F); [eexists _, _; split; [reflexivity|cbn; auto]|].
      assert (A2 : all_ascii (text p2)) by (rewrite T1 in A1; rewrite T2; unfold all_ascii in *; apply Forall_app in A1 as [_ A1]; apply Forall_app; split; [eapply Forall_impl; [|exact X]; cbn; lia|exact A1]).
      destruct (apart_ws _ _ _ T2 X ltac:(cbn; lia) A2) as (p3 & T3 & AP). destruct (char_at _ _ _ T3) as (p4 & T4 & C & _).
      exists p4. split; [exact T4|]. cbn [flat_map pair_deeds fst snd]. rewrite app_nil_r. cbn [app].
      apply (fm_pair hs p p0 _ p1 _ p2 _ p4 AP0 K (fo_node hs Value p1 _ p2 F)). exact (fm_end hs false p2 p3 p4 AP C).
    - intros w k n w' t v t' l W Q _ G _ IH _ IH' p r T A. rewrite <- !app_assoc in T. cbn [app] in T. rewrite <- !app_assoc in T. cbn [app] in T.
      destruct (member_key w k n w' p _ W Q G T A) as (p0 & p1 & AP0 & K & T1 & A1). rewrite <- T1 in A1.
      destruct (IH Value p1 _ T1 A1) as (p2 & x & T2 & X & F); [eexists _, _; split; [reflexivity|cbn; auto]|].
      assert (A2 : all_ascii (text p2)) by (rewrite T1 in A1; rewrite T2; unfold all_ascii in *; apply Forall_app in A1 as [_ A1]; apply Forall_app; split; [eapply Forall_impl; [|exact X]; cbn; lia|exact A1]).
      destruct (apart_ws _ _ _ T2 X ltac:(cbn; lia) A2) as (p3 & T3 & AP). destruct (char_at _ _ _ T3) as (p4 & T4 & C & _).
      assert (A4 : all_ascii (text p4)) by (rewrite T4; rewrite T2 in A2; apply asc in A2; exact (asc_tail _ _ A2)).
      destruct (IH' p4 r T4 A4) as (p' & T' & F'). exists p'. split; [exact T'|]. cbn [flat_map pair_deeds fst snd app]. rewrite <- app_assoc.
      apply (fm_pair hs p p0 _ p1 _ p2 _ p' AP0 K (fo_node hs Value p1 _ p2 F)). exact (fm_comma hs p2 p3 p4 _ p' AP C F').
  Qed.
End Flow.

Theorem json_stream t v : all_ascii t -> plain_json t v -> stream t (document v).
Proof.
  intros A J. unfold plain_json in J. revert A. destruct J as [w t0 v0 w' W V W']. intros A. set (hs := handles_of []). set (p := beginning (w ++ t0 ++ w')).
  assert (T : text p = w ++ t0 ++ w') by reflexivity.
  destruct (apart_ws _ _ _ T W (value_dark _ _ _ _ _ V) A) as (p0 & T0 & AP). assert (A0 : all_ascii (text p0)) by (rewrite T0; exact (asc _ _ A)).
  assert (ST : forall f, stops f w') by (intros f; exists w', []; rewrite app_nil_r; auto).
  assert (LB : exists p', text p' = w' /\ leaf_body hs None (bare Root) p (deeds Root v0) p' false).
  { destruct (all_read hs) as (_ & _ & RE & RM).
    assert (BB : forall s, bare_text s -> text p0 = s ++ w' -> exists p', text p' = w' /\ leaf_body hs None (bare Root) p [Text (bare Root) s Plain] p' false).
    { intros s B TS. destruct (bare_scalar false 1 s p0 w' B TS A0 (ST false)) as (p' & T' & SC). exists p'. split; [exact T'|].
      exact (lb_atom hs None (bare Root) p p0 _ p' AP Logic.I (at_scalar false 1 (bare Root) p0 s Plain p' SC)). }
    destruct V as [s I|s N|t v Q|x X|t l E|x X|t l M].
    - apply (BB s (literal_bare s I) T0).
    - apply (BB s (number_bare s N) T0).
    - destruct (string_scalar t v p0 w' Q T0 A0) as (p' & T' & _ & _ & SC). exists p'. split; [exact T'|].
      exact (lb_atom hs None (bare Root) p p0 _ p' AP Logic.I (at_scalar false 1 (bare Root) p0 v DoubleQuote p' (SC false 1))).
    - cbn [app] in T0. rewrite <- app_assoc in T0. destruct (char_at _ _ _ T0) as (p1 & T1 & C1 & _).
      assert (A1 : all_ascii (text p1)) by (rewrite T1; rewrite T0 in A0; exact (asc_tail _ _ A0)).
      destruct (apart_ws x ([93%N] ++ w') p1 T1 X ltac:(cbn; lia) A1) as (p2 & T2 & AP2). destruct (char_at _ _ _ T2) as (p3 & T3 & C3 & _).
      exists p3. split; [exact T3|]. apply (lb_seq hs None (bare Root) p p0 p1 _ p3 AP Logic.I C1). exact (fs_end hs true p1 p2 p3 AP2 C3).
    - cbn [app] in T0. rewrite <- app_assoc in T0. destruct (char_at _ _ _ T0) as (p1 & T1 & C1 & _).
      assert (A1 : all_ascii (text p1)) by (rewrite T1; rewrite T0 in A0; exact (asc_tail _ _ A0)).
      destruct (RE t l E p1 w' T1 A1) as (p' & T' & F). exists p'. split; [exact T'|]. exact (lb_seq hs None (bare Root) p p0 p1 _ p' AP Logic.I C1 F).
    - cbn [app] in T0. rewrite <- app_assoc in T0. destruct (char_at _ _ _ T0) as (p1 & T1 & C1 & _).
      assert (A1 : all_ascii (text p1)) by (rewrite T1; rewrite T0 in A0; exact (asc_tail _ _ A0)).
      destruct (apart_ws x ([125%N] ++ w') p1 T1 X ltac:(cbn; lia) A1) as (p2 & T2 & AP2). destruct (char_at _ _ _ T2) as (p3 & T3 & C3 & _).
      exists p3. split; [exact T3|]. apply (lb_map hs None (bare Root) p p0 p1 _ p3 AP Logic.I C1). exact (fm_end hs true p1 p2 p3 AP2 C3).
    - cbn [app] in T0. rewrite <- app_assoc in T0. destruct (char_at _ _ _ T0) as (p1 & T1 & C1 & _).
      assert (A1 : all_ascii (text p1)) by (rewrite T1; rewrite T0 in A0; exact (asc_tail _ _ A0)).
      destruct (RM t l M p1 w' T1 A1) as (p' & T' & F). exists p'. split; [exact T'|]. exact (lb_map hs None (bare Root) p p0 p1 _ p' AP Logic.I C1 F). }
  destruct LB as (p' & T' & LB). unfold stream, document.
  apply (dn_bare true false p (deeds Root v0) p' false [Finish true]).
  - refine (cn_leaf hs true false p (bare Root) p _ p' false _ LB). exists []. split; constructor.
  - apply de_implicit, dn_end. rewrite T'. assert (AW : all_ascii (w' ++ [])) by (rewrite app_nil_r; apply asc, asc in A; exact A).
    destruct (ws_apart _ w' [] (mkStats 0 0 0) (le_n _) W' Logic.I AW) as (_ & S & _). rewrite app_nil_r in S. exact S.
Qed.
