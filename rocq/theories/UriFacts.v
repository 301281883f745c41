(** Tag URIs: what is decoded is what is spelled. *)
From Verif Require Export TagFacts Loops SpecUri.
From Verif Require Import Utf8Facts SpecUtf8.
From Coq Require Import Lia ZifyBool ZifyN ZifyNat.
Open Scope nat_scope.

Lemma leaf_nofuel {A B} o P pan (m : sres A) (k : A -> sres B) :
  leaf o P pan (bind m k) -> m <> Fuel.
Proof. intros H E. rewrite E in H. exact H. Qed.

(** A text that can be cut off in front of. *)
Definition head_ok (s : str) : Prop := match s with b :: _ => is_cont b = false | [] => True end.

Lemma boundary_app a s : head_ok s -> is_boundary (a ++ s) (List.length a) = true.
Proof.
  intros H. unfold is_boundary. destruct (List.length a) eqn:L; [reflexivity|]. rewrite <- L.
  rewrite nth_error_app2, Nat.sub_diag by lia. destruct s as [|b s]; cbn in *.
  - rewrite app_length. cbn. apply Nat.eqb_eq. lia.
  - rewrite H. reflexivity.
Qed.
Lemma skipn_app_exact {A} (a s : list A) : skipn (List.length a) (a ++ s) = s.
Proof. rewrite skipn_app, skipn_all, Nat.sub_diag. reflexivity. Qed.
Lemma firstn_app_exact {A} (a s : list A) : firstn (List.length a) (a ++ s) = a.
Proof. rewrite firstn_app, firstn_all, Nat.sub_diag, app_nil_r. reflexivity. Qed.
Lemma skip_app {E} a s : head_ok s -> skip (E := E) (a ++ s) (List.length a) = Ok s.
Proof. intros H. unfold skip. rewrite boundary_app by exact H. rewrite skipn_app_exact. reflexivity. Qed.
Lemma adv_app a s st : head_ok s ->
  adv (a ++ s) st (List.length a) = Ok (s, supd st (List.length a) 0 (List.length a)).
Proof. intros H. unfold adv. rewrite skip_app by exact H. reflexivity. Qed.
Lemma consumed_app a s : consumed (a ++ s) s = List.length a.
Proof. unfold consumed. rewrite app_length. lia. Qed.
Lemma supd_supd st a b : supd (supd st a 0 a) b 0 b = supd st (a + b) 0 (a + b).
Proof. unfold supd. cbn. f_equal; lia. Qed.

Lemma ascii_head b s : (b < 128)%N -> head_ok (b :: s).
Proof. cbn. unfold is_cont. lia. Qed.

(** Enough characters for [cache]. *)
Lemma width_ascii b s : (b < 128)%N -> width_at (b :: s) 0 = 1.
Proof. intros H. unfold width_at, width_byte. cbn. replace (b <? 128)%N with true by lia. reflexivity. Qed.
Lemma width_at_skip s n k : width_at s (n + k) = width_at (skipn n s) k.
Proof. unfold width_at. rewrite nth_error_skipn. reflexivity. Qed.
Lemma cache_at_skip o n : forall s off, cache_at o s off n = cache_at o (skipn off s) 0 n.
Proof.
  induction n as [|n IH]; intros s off; [reflexivity|]. cbn [cache_at].
  replace off with (off + 0) at 1 by lia. rewrite width_at_skip.
  destruct (width_at (skipn off s) 0) as [|w]; [reflexivity|].
  rewrite IH. rewrite (IH (skipn off s) (0 + S w)). rewrite skipn_skipn. f_equal.
Qed.
Lemma cache_ascii o a s : ascii a -> cache o (a ++ s) (List.length a) = Ok tt.
Proof.
  intros H. unfold cache. revert s. induction H as [|b a B A IH]; intros s; [reflexivity|].
  cbn [List.length app cache_at]. rewrite width_ascii by exact B.
  rewrite cache_at_skip. apply IH.
Qed.

(** ** The byte classes *)
Lemma byte_cases (P : N -> bool) :
  forallb P (map N.of_nat (seq 0 256)) = true -> forall b, (b < 256)%N -> P b = true.
Proof.
  intros H b B. rewrite forallb_forall in H. apply H.
  replace b with (N.of_nat (N.to_nat b)) by lia. apply in_map, in_seq. lia.
Qed.
Lemma octet_len_spec b : (b < 256)%N ->
  octet_len b = if (b <? 128)%N then Some 1 else if rng 192 223 b then Some 2
                else if rng 224 239 b then Some 3 else if rng 240 247 b then Some 4 else None.
Proof.
  intros B.
  assert (H : (match octet_len b with Some n => n | None => 9 end =?
    match (if (b <? 128)%N then Some 1 else if rng 192 223 b then Some 2
                else if rng 224 239 b then Some 3 else if rng 240 247 b then Some 4 else None)
    with Some n => n | None => 9 end)%nat = true).
  { revert b B. apply (byte_cases (fun b => (match octet_len b with Some n => n | None => 9 end =?
    match (if (b <? 128)%N then Some 1 else if rng 192 223 b then Some 2
                else if rng 224 239 b then Some 3 else if rng 240 247 b then Some 4 else None)
    with Some n => n | None => 9 end)%nat)). vm_compute. reflexivity. }
  apply Nat.eqb_eq in H. unfold octet_len in *.
  repeat match goal with
  | H : context [if ?c then _ else _] |- _ => destruct c; try discriminate H; try reflexivity
  end.
Qed.
Lemma cont_spec b : (b < 256)%N -> (N.land b 192 =? 128)%N = is_cont b.
Proof.
  intros B. apply eqb_prop. revert b B.
  apply (byte_cases (fun b => Bool.eqb (N.land b 192 =? 128)%N (is_cont b))). vm_compute. reflexivity.
Qed.

Lemma hex_value_iff c v : hex_value c v <-> is_hex_byte c = true /\ as_hex c = v.
Proof.
  unfold is_hex_byte, as_hex, is_digit, rng. split.
  - intros H; inversion H; subst.
    + split; [lia|]. replace (_ && _) with false by lia. replace (_ && _) with false by lia. lia.
    + split; [lia|]. replace (_ && _) with true by lia. lia.
    + split; [lia|]. replace (_ && _) with false by lia. replace (_ && _) with true by lia. lia.
  - intros [H <-].
    destruct ((65 <=? c)%N && (c <=? 70)%N) eqn:A.
    { replace c with (55 + (c - 65 + 10))%N at 1 by lia. constructor. lia. }
    destruct ((97 <=? c)%N && (c <=? 102)%N) eqn:B.
    { replace c with (87 + (c - 97 + 10))%N at 1 by lia. constructor. lia. }
    replace c with (48 + (c - 48))%N at 1 by lia. constructor. lia.
Qed.
Lemma hex_value_lt c v : hex_value c v -> (v < 16)%N /\ (c < 128)%N.
Proof. intros H; inversion H; lia. Qed.
Lemma octet_value h x l y : hex_value h x -> hex_value l y ->
  (N.shiftl (as_hex h) 4 + as_hex l = 16 * x + y)%N /\ is_hex_byte h = true /\ is_hex_byte l = true.
Proof.
  intros H L. apply hex_value_iff in H as [A <-]. apply hex_value_iff in L as [B <-].
  rewrite N.shiftl_mul_pow2. change (2 ^ 4)%N with 16%N. split; [lia|auto].
Qed.
Lemma uri_literal_iff v b :
  uri_literal v b <-> uri_byte b || v && uri_verbatim_byte b = true.
Proof.
  unfold uri_literal, letter_or_digit, uri_byte, uri_verbatim_byte, rng, is_upper, is_lower. cbn [In].
  destruct v; cbn [andb]; split; intros H; try lia.
Qed.
Lemma literal_ascii v b : uri_literal v b -> (b < 128)%N /\ b <> 37%N.
Proof.
  unfold uri_literal, letter_or_digit. cbn [In]. lia.
Qed.

(** ** Percent-encoded characters *)
Lemma percent_ascii t s : percent t s -> ascii t.
Proof.
  induction 1 as [|h x l y b t s H L E P IH]; [constructor|].
  apply hex_value_lt in H. apply hex_value_lt in L. repeat (constructor; [lia|]). exact IH.
Qed.
Lemma percent_head t s r : percent t s -> head_ok r -> head_ok (t ++ r).
Proof. intros [|]; cbn; auto. Qed.
Lemma percent_byte t s : percent t s -> Forall (fun b => (b < 256)%N) s.
Proof.
  induction 1 as [|h x l y b t s H L E P IH]; constructor; [|exact IH].
  apply hex_value_lt in H. apply hex_value_lt in L. lia.
Qed.

Lemma unescape_conts o t s : percent t s -> forall rest out k, Forall (fun b => is_cont b = true) s ->
  List.length s = S k -> head_ok rest ->
  runs (uri_unescape_body o) (t ++ rest, out, Some (S k)) (rest, out ++ s).
Proof.
  induction 1 as [|h x l y b t s H L E P IH]; intros rest out k C N R; [discriminate|].
  destruct (octet_value _ _ _ _ H L) as (V & Hh & Hl).
  pose proof (Forall_inv C) as C1. pose proof (Forall_inv_tail C) as C2. cbv beta in C1.
  rewrite <- E in V.
  assert (B : (b < 256)%N) by (apply hex_value_lt in H; apply hex_value_lt in L; lia).
  assert (K : forall k', uri_unescape_body o ((37%N :: h :: l :: t) ++ rest, out, Some (S k')) =
    match S k' with S (S k) => Ok (Next (t ++ rest, out ++ [b], Some (S k)))
                  | _ => Ok (Done (t ++ rest, out ++ [b])) end).
  { intros k'. unfold uri_unescape_body.
    change ((37%N :: h :: l :: t) ++ rest) with ([37%N; h; l] ++ (t ++ rest)).
    rewrite (cache_ascii o [37%N; h; l]) by
      (apply hex_value_lt in H; apply hex_value_lt in L; repeat constructor; lia).
    cbn [bind app]. rewrite Hh, Hl. cbn [N.eqb Pos.eqb andb].
    rewrite V, cont_spec, C1 by exact B. cbn [bind].
    change (37%N :: h :: l :: t ++ rest) with ([37%N; h; l] ++ (t ++ rest)).
    change 3 with (List.length [37%N; h; l]) at 1.
    rewrite skip_app by (eapply percent_head; eauto). reflexivity. }
  cbn [List.length] in N. injection N as N. destruct k as [|k].
  - apply runs_done. rewrite K. destruct s; [|discriminate]. inversion P; subst. reflexivity.
  - eapply runs_next; [apply (K (S k))|].
    replace (out ++ b :: s) with ((out ++ [b]) ++ s)
      by (rewrite <- app_assoc; reflexivity).
    apply IH; auto.
Qed.

Lemma cons_inj {A} (a b : A) l m : a :: l = b :: m -> a = b /\ l = m.
Proof. intros E; split; congruence. Qed.
Lemma encode_octets v b s : scalar_value v -> encode v = b :: s ->
  octet_len b = Some (S (List.length s)) /\ Forall (fun c => is_cont c = true) s /\ (b < 256)%N.
Proof.
  intros [V _]. unfold encode, is_cont.
  destruct (v <? 128)%N eqn:A; [|destruct (v <? 2048)%N eqn:B; [|destruct (v <? 65536)%N eqn:C]];
    intros E; apply cons_inj in E as [<- <-].
  all: assert (D : forall a c, (0 < c -> a mod c < c)%N) by (intros; apply N.mod_lt; lia).
  - split; [|split; [constructor|lia]]. rewrite octet_len_spec by lia. rewrite A. reflexivity.
  - assert (Q : (2 <= v / 64 < 32)%N).
    { split; [apply N.div_le_lower_bound; lia|apply N.div_lt_upper_bound; lia]. }
    assert (M1 := D v 64%N ltac:(lia)).
    split; [|split; [repeat (apply Forall_cons; [lia|]); apply Forall_nil|lia]].
    rewrite octet_len_spec by lia. unfold rng.
    replace (_ <? 128)%N with false by lia. replace (_ && _) with true by lia. reflexivity.
  - assert (Q : (0 <= v / 4096 < 16)%N).
    { split; [lia|apply N.div_lt_upper_bound; lia]. }
    assert (M1 := D v 64%N ltac:(lia)). assert (M2 := D (v / 64)%N 64%N ltac:(lia)).
    split; [|split; [repeat (apply Forall_cons; [lia|]); apply Forall_nil|lia]].
    rewrite octet_len_spec by lia. unfold rng.
    replace (_ <? 128)%N with false by lia. replace (_ && _) with false by lia.
    replace (_ && _) with true by lia. reflexivity.
  - assert (Q : (0 <= v / 262144 < 5)%N).
    { split; [lia|apply N.div_lt_upper_bound; lia]. }
    assert (M1 := D v 64%N ltac:(lia)). assert (M2 := D (v / 64)%N 64%N ltac:(lia)).
    assert (M3 := D (v / 4096)%N 64%N ltac:(lia)).
    split; [|split; [repeat (apply Forall_cons; [lia|]); apply Forall_nil|lia]].
    rewrite octet_len_spec by lia. unfold rng.
    replace (_ <? 128)%N with false by lia. replace (_ && _) with false by lia.
    replace (_ && _) with false by lia. replace (_ && _) with true by lia. reflexivity.
Qed.

Lemma unescape_char o v e rest : scalar_value v -> percent e (encode v) -> head_ok rest ->
  tag_uri_unescape o (e ++ rest) = Ok (encode v, List.length e).
Proof.
  intros V P R. unfold tag_uri_unescape.
  assert (U : runs (uri_unescape_body o) (e ++ rest, [], None) (rest, encode v)).
  { destruct (encode_nonempty v) as (b & s & E). destruct (encode_octets v b s V E) as (L & C & B).
    rewrite E in *. inversion P as [|h x l y b' t s' H1 H2 EB P']; subst e b' s'.
    destruct (octet_value _ _ _ _ H1 H2) as (O & Hh & Hl).
    assert (K : uri_unescape_body o ((37%N :: h :: l :: t) ++ rest, [], None) =
      match S (List.length s) with S (S k) => Ok (Next (t ++ rest, [b], Some (S k)))
                    | _ => Ok (Done (t ++ rest, [b])) end).
    { unfold uri_unescape_body.
      change ((37%N :: h :: l :: t) ++ rest) with ([37%N; h; l] ++ (t ++ rest)).
      rewrite (cache_ascii o [37%N; h; l]) by
        (apply hex_value_lt in H1; apply hex_value_lt in H2; repeat constructor; lia).
      cbn [bind app]. rewrite Hh, Hl. cbn [N.eqb Pos.eqb andb].
      rewrite O, <- EB, L. cbn [bind].
      change (37%N :: h :: l :: t ++ rest) with ([37%N; h; l] ++ (t ++ rest)).
      change 3 with (List.length [37%N; h; l]) at 1.
      rewrite skip_app by (eapply percent_head; eauto). reflexivity. }
    destruct s as [|c s].
    - apply runs_done. rewrite K. inversion P'; subst. reflexivity.
    - eapply runs_next; [rewrite K; cbn [List.length]; reflexivity|].
      change (b :: c :: s) with ([b] ++ (c :: s)).
      apply unescape_conts; auto. }
  rewrite (runs_loop _ _ _ U).
  - cbn [bind]. rewrite consumed_app. reflexivity.
  - eapply leaf_nofuel. exact (tag_uri_unescape_leaf o (e ++ rest)).
Qed.

(** ** URIs *)
Lemma spelled_head v t s rest : spelled v t s -> uri_stop v rest -> head_ok (t ++ rest).
Proof.
  intros S (c & r & -> & A & _). destruct S as [|b t s L S|w e t s W P S].
  - apply ascii_head, A.
  - apply ascii_head. exact (proj1 (literal_ascii _ _ L)).
  - rewrite <- app_assoc. destruct (encode_nonempty w) as (b & q & E). rewrite E in P.
    inversion P; subst. apply ascii_head. reflexivity.
Qed.

Lemma spelled_valid v t s : spelled v t s -> well_formed s.
Proof.
  induction 1 as [|b t s L S IH|w e t s W P S IH].
  - exists []. split; [constructor|reflexivity].
  - destruct IH as (ps & F & ->). apply literal_ascii in L as [L _].
    exists (b :: ps). split; [constructor; [unfold scalar_value; lia|exact F]|].
    cbn [flat_map]. rewrite enc1 by exact L. reflexivity.
  - destruct IH as (ps & F & ->). exists (w :: ps). split; [constructor; assumption|reflexivity].
Qed.

Lemma tag_uri_runs o v base rest t s : spelled v t s -> uri_stop v rest ->
  forall pre read st scratch (borrow : bool), base = pre ++ t ++ rest ->
  (if borrow then pre = read /\ scratch = [] else scratch = read) ->
  exists scratch' (borrow' : bool),
    runs (tag_uri_body o base v) (t ++ rest, st, scratch, borrow)
      (rest, supd st (List.length t) 0 (List.length t), scratch', borrow') /\
    (if borrow' then pre ++ t = read ++ s /\ scratch' = [] else scratch' = read ++ s) /\
    (borrow' = true <-> borrow = true /\ t = s).
Proof.
  intros S R. induction S as [|b t s L S IH|w e t s W P S IH];
    intros pre read st scratch borrow E H.
  - exists scratch, borrow. split; [|split].
    + apply runs_done. destruct R as (c & r & -> & A & NL & NP). unfold tag_uri_body.
      cbn [app]. change (c :: r) with ([c] ++ r). rewrite (cache_ascii o [c]) by (repeat constructor; lia).
      cbn [bind app]. rewrite uri_literal_iff in NL.
      destruct (uri_byte c || v && uri_verbatim_byte c); [congruence|].
      replace (c =? 37)%N with false by lia. repeat f_equal.
      unfold supd. cbn. destruct st; cbn. f_equal; lia.
    + rewrite !app_nil_r. exact H.
    + split; [auto|intros []; assumption].
  - pose proof (literal_ascii _ _ L) as [A NP].
    destruct (IH (pre ++ [b]) (read ++ [b]) (supd st 1 0 1)
                (if borrow then scratch else scratch ++ [b]) borrow)
      as (scr & bor & K & G & I).
    { rewrite <- app_assoc. exact E. }
    { destruct borrow; [destruct H; subst; auto|subst; reflexivity]. }
    exists scr, bor. split; [|split].
    + change (List.length (b :: t)) with (1 + List.length t).
      rewrite <- (supd_supd st 1 (List.length t)). eapply runs_next; [|exact K].
      unfold tag_uri_body. cbn [app].
      change (b :: t ++ rest) with ([b] ++ (t ++ rest)).
      rewrite (cache_ascii o [b]) by (repeat constructor; lia). cbn [bind].
      cbn [app]. apply uri_literal_iff in L. rewrite L.
      change (b :: t ++ rest) with ([b] ++ (t ++ rest)).
      rewrite (adv_app [b]) by (eapply spelled_head; eauto). reflexivity.
    + rewrite <- !app_assoc in G. exact G.
    + rewrite I. split; intros [X Y]; split; auto; congruence.
  - destruct (IH (pre ++ e) (read ++ encode w) (supd st (List.length e) 0 (List.length e))
                (read ++ encode w) false)
      as (scr & bor & K & G & I).
    { rewrite <- app_assoc. rewrite E. rewrite <- app_assoc. reflexivity. }
    { reflexivity. }
    assert (NE : exists e', e = 37%N :: e').
    { destruct (encode_nonempty w) as (b & q & Q). rewrite Q in P. inversion P. eauto. }
    destruct NE as (e' & NE).
    exists scr, bor. split; [|split].
    + rewrite app_length, <- supd_supd. eapply runs_next; [|exact K].
      unfold tag_uri_body. rewrite <- app_assoc.
      rewrite NE at 1. cbn [app]. change (37%N :: e' ++ t ++ rest) with ([37%N] ++ (e' ++ t ++ rest)).
      rewrite (cache_ascii o [37%N]) by (repeat constructor). cbn [bind app].
      rewrite NE at 1. cbn [app].
      replace (uri_byte 37 || v && uri_verbatim_byte 37) with false by (destruct v; reflexivity).
      cbn [N.eqb Pos.eqb].
      assert (HD : head_ok (t ++ rest)) by (eapply spelled_head; eauto).
      rewrite (unescape_char o w e (t ++ rest) W P HD). cbn [bind].
      rewrite adv_app by exact HD. cbn [bind]. do 4 f_equal.
      destruct borrow; [|rewrite H; reflexivity]. destruct H as [-> ->].
      subst base. rewrite <- !app_assoc.
      replace (consumed (read ++ e ++ t ++ rest) (e ++ t ++ rest)) with (List.length read)
        by (rewrite consumed_app; reflexivity).
      rewrite firstn_app_exact. reflexivity.
    + rewrite <- !app_assoc in G. exact G.
    + rewrite I. split; [intros [X _]; discriminate|].
      intros [-> X]. exfalso. apply (f_equal (@List.length _)) in X. rewrite !app_length in X.
      assert (PL : forall e s, percent e s -> List.length e = 3 * List.length s).
      { clear. induction 1; cbn [List.length]; lia. }
      assert (LL : forall t s, spelled v t s -> List.length s <= List.length t).
      { clear - PL. induction 1 as [|b t s L S IH|w e t s W P S IH]; [cbn; lia|cbn; lia|].
        rewrite !app_length. specialize (PL _ _ P). lia. }
      specialize (LL _ _ S). specialize (PL _ _ P). rewrite NE in PL, X. cbn [List.length] in PL, X. lia.
Qed.

Lemma scan_tag_uri_complete o v t s rest st : spelled v t s -> uri_stop v rest ->
  scan_tag_uri o (t ++ rest) st true v
  = Ok (if str_eqb t s then Borrowed t else Owned s, List.length t,
        supd st (List.length t) 0 (List.length t), str_eqb t s).
Proof.
  intros S R. destruct (tag_uri_runs o v (t ++ rest) rest t s S R [] [] st [] true) as (scr & bor & K & G & I).
  { reflexivity. } { auto. }
  unfold scan_tag_uri. rewrite (runs_loop _ _ _ K).
  2: { eapply leaf_nofuel. exact (scan_tag_uri_leaf o (t ++ rest) st v). }
  cbn [bind]. rewrite consumed_app.
  assert (SE : str_eqb t s = bor).
  { destruct bor; [apply BaseFacts.str_eqb_eq; apply I; reflexivity|].
    destruct (str_eqb t s) eqn:E; [|reflexivity]. apply BaseFacts.str_eqb_eq in E.
    destruct (proj2 I (conj eq_refl E)); reflexivity. }
  rewrite SE. destruct bor.
  - unfold slice. cbn [Nat.leb]. change (is_boundary (t ++ rest) 0) with true.
    rewrite boundary_app by (destruct R as (c & r & -> & A & _); apply ascii_head, A).
    cbn [andb bind skipn]. rewrite Nat.sub_0_r, firstn_app_exact. reflexivity.
  - cbn [app] in G. subst scr. unfold utf8_unwrap.
    rewrite (proj2 (valid_iff s) (spelled_valid _ _ _ S)). reflexivity.
Qed.

(** ** Soundness: what is decoded is spelled *)
Lemma octet_value' h l : is_hex_byte h = true -> is_hex_byte l = true ->
  exists x y, hex_value h x /\ hex_value l y /\ (N.shiftl (as_hex h) 4 + as_hex l = 16 * x + y)%N /\
              (16 * x + y < 256)%N.
Proof.
  intros H L. exists (as_hex h), (as_hex l).
  assert (A : hex_value h (as_hex h)) by (apply hex_value_iff; auto).
  assert (B : hex_value l (as_hex l)) by (apply hex_value_iff; auto).
  pose proof (octet_value _ _ _ _ A B) as (V & _).
  pose proof (hex_value_lt _ _ A). pose proof (hex_value_lt _ _ B).
  repeat split; auto. lia.
Qed.

Lemma unescape_sound_loop o s0 r : runs (uri_unescape_body o) s0 r ->
  forall buf out pending rest out', s0 = (buf, out, pending) -> r = (rest, out') ->
  exists e g, buf = e ++ rest /\ percent e g /\ out' = out ++ g /\
    match pending with
    | None => exists b c, g = b :: c /\ octet_len b = Some (List.length g) /\
                Forall (fun b => is_cont b = true) c
    | Some n => (n = 0 \/ List.length g = n) /\ Forall (fun b => is_cont b = true) g
    end.
Proof.
  induction 1 as [s r B|s s' r B H IH]; intros buf out pending rest out' -> E2;
    unfold uri_unescape_body in B;
    destruct (cache o buf 3) as [[]|e| |]; cbn [bind] in B; try discriminate;
    (destruct buf as [|p [|h [|l t]]]; try discriminate);
    destruct ((p =? 37)%N && is_hex_byte h && is_hex_byte l) eqn:G; try discriminate;
    apply andb_true_iff in G as [G Hl]; apply andb_true_iff in G as [Hp Hh];
    apply N.eqb_eq in Hp; subst p;
    destruct (octet_value' h l Hh Hl) as (x & y & Vh & Vl & V & LT); rewrite V in B;
    remember (16 * x + y)%N as b eqn:Eb.
  - destruct pending as [n|].
    + rewrite cont_spec in B by exact LT. destruct (is_cont b) eqn:C; cbn [bind] in B; [|discriminate].
      unfold skip in B. destruct (is_boundary _ 3); cbn [bind] in B; [|discriminate].
      destruct n as [|[|n]]; [| |discriminate]; injection B as B; rewrite <- B in E2; injection E2 as <- <-;
        exists [37%N; h; l], [b]; (split; [reflexivity|]);
        (split; [eapply percent_cons; eauto; constructor|]); (split; [reflexivity|]);
        (split; [auto|repeat constructor; exact C]).
    + destruct (octet_len b) as [n|] eqn:O; cbn [bind] in B; [|discriminate].
      unfold skip in B. destruct (is_boundary _ 3); cbn [bind] in B; [|discriminate].
      destruct n as [|[|n]]; [| |discriminate]; injection B as B; rewrite <- B in E2; injection E2 as <- <-;
        exists [37%N; h; l], [b]; (split; [reflexivity|]);
        (split; [eapply percent_cons; eauto; constructor|]); (split; [reflexivity|]);
        exists b, []; repeat split; auto.
      rewrite octet_len_spec in O by exact LT. exfalso.
      repeat match goal with H : context [if ?c then _ else _] |- _ => destruct c; try discriminate H end.
  - destruct pending as [n|].
    + rewrite cont_spec in B by exact LT. destruct (is_cont b) eqn:C; cbn [bind] in B; [|discriminate].
      unfold skip in B. destruct (is_boundary _ 3); cbn [bind] in B; [|discriminate].
      destruct n as [|[|n]]; try discriminate. injection B as B. cbn [skipn] in B.
      destruct (IH t (out ++ [b]) (Some (S n)) rest out' (eq_sym B) E2) as (e & g & -> & P & -> & [Q F]).
      exists (37%N :: h :: l :: e), (b :: g). split; [reflexivity|].
      split; [eapply percent_cons; eauto|]. split; [rewrite <- app_assoc; reflexivity|].
      split; [right; cbn; destruct Q; lia|constructor; assumption].
    + destruct (octet_len b) as [n|] eqn:O; cbn [bind] in B; [|discriminate].
      unfold skip in B. destruct (is_boundary _ 3); cbn [bind] in B; [|discriminate].
      destruct n as [|[|n]]; try discriminate. injection B as B. cbn [skipn] in B.
      destruct (IH t (out ++ [b]) (Some (S n)) rest out' (eq_sym B) E2) as (e & g & -> & P & -> & [Q F]).
      exists (37%N :: h :: l :: e), (b :: g). split; [reflexivity|].
      split; [eapply percent_cons; eauto|]. split; [rewrite <- app_assoc; reflexivity|].
      exists b, g. repeat split; auto. rewrite O. f_equal. cbn. destruct Q; lia.
Qed.

(** Octets announced by a first octet. *)
Definition octets (g : str) : Prop :=
  exists b c, g = b :: c /\ octet_len b = Some (List.length g) /\ Forall (fun b => is_cont b = true) c.

Lemma unescape_sound o buf out n : tag_uri_unescape o buf = Ok (out, n) ->
  exists e rest, buf = e ++ rest /\ n = List.length e /\ percent e out /\ octets out.
Proof.
  unfold tag_uri_unescape. destruct (loop _ _ _) as [[rest out']|e| |] eqn:L; cbn [bind]; try discriminate.
  apply loop_runs in L. intros E; injection E as <- <-.
  destruct (unescape_sound_loop o _ _ L _ _ _ _ _ eq_refl eq_refl) as (e & g & -> & P & -> & O).
  exists e, rest. rewrite consumed_app. auto.
Qed.

(** Spelling before the check for UTF-8. *)
Inductive rough (v : bool) : str -> str -> Prop :=
| rough_nil : rough v [] []
| rough_lit b t s : uri_literal v b -> rough v t s -> rough v (b :: t) (b :: s)
| rough_char e g t s : percent e g -> octets g -> rough v t s -> rough v (e ++ t) (g ++ s).

Lemma some_inj {A} (a b : A) : Some a = Some b -> a = b.
Proof. congruence. Qed.
Lemma utf8_char_octets g s n : octets g -> utf8_char (g ++ s) = S n -> List.length g = S n.
Proof.
  intros (b & c & -> & O & F) U. cbn [app] in U.
  assert (B : (b < 256)%N).
  { unfold utf8_char, rng in U. destruct (b <? 128)%N eqn:X; [lia|].
    destruct ((194 <=? b)%N && (b <=? 223)%N) eqn:X1; [lia|].
    destruct ((224 <=? b)%N && (b <=? 239)%N) eqn:X2; [lia|].
    destruct ((240 <=? b)%N && (b <=? 244)%N) eqn:X3; [lia|discriminate]. }
  rewrite octet_len_spec in O by exact B. unfold utf8_char, rng in *.
  destruct (b <? 128)%N eqn:X; [congruence|].
  destruct ((194 <=? b)%N && (b <=? 223)%N) eqn:X1.
  { replace ((192 <=? b)%N && (b <=? 223)%N) with true in O by lia. assert (O' := some_inj _ _ O).
    rewrite <- O'. clear O O'. destruct (c ++ s) as [|x r]; [discriminate|]. destruct (is_cont x); [congruence|discriminate]. }
  destruct ((224 <=? b)%N && (b <=? 239)%N) eqn:X2.
  { replace ((192 <=? b)%N && (b <=? 223)%N) with false in O by lia. assert (O' := some_inj _ _ O).
    rewrite <- O'. clear O O'. destruct (c ++ s) as [|x [|y r]]; try discriminate.
    destruct (_ && is_cont y); [congruence|discriminate]. }
  destruct ((240 <=? b)%N && (b <=? 244)%N) eqn:X3; [|discriminate].
  replace ((192 <=? b)%N && (b <=? 223)%N) with false in O by lia.
  replace ((240 <=? b)%N && (b <=? 247)%N) with true in O by lia. assert (O' := some_inj _ _ O).
  rewrite <- O'. clear O O'. destruct (c ++ s) as [|x [|y [|z r]]]; try discriminate.
  destruct (_ && is_cont z); [congruence|discriminate].
Qed.

Lemma valid_cons s : valid_utf8 s = true -> s <> [] ->
  exists v r, scalar_value v /\ s = encode v ++ r /\ valid_utf8 r = true /\
              utf8_char s = List.length (encode v).
Proof.
  intros V N. apply valid_iff in V as (ps & F & ->). destruct F as [|v ps V F]; [contradiction|].
  exists v, (flat_map encode ps). cbn [flat_map]. repeat split; auto.
  - exact (proj1 V). - exact (proj2 V).
  - apply valid_iff. exists ps. auto.
  - apply char_encode, V.
Qed.

Lemma rough_spelled v t s : rough v t s -> valid_utf8 s = true -> spelled v t s.
Proof.
  induction 1 as [|b t s L R IH|e g t s P O R IH]; intros V; [constructor| |].
  - constructor; [exact L|]. apply IH.
    destruct (valid_cons _ V ltac:(discriminate)) as (w & r & W & E & V' & _).
    apply literal_ascii in L as [L _].
    assert (encode w = [b]).
    { destruct (encode_nonempty w) as (c & q & Q). rewrite Q in E. injection E as <- E.
      revert Q. unfold encode. destruct (w <? 128)%N; [congruence|].
      destruct (w <? 2048)%N; [intros Q; apply cons_inj in Q as [Q _]; lia|].
      destruct (w <? 65536)%N; intros Q; apply cons_inj in Q as [Q _]; lia. }
    rewrite H in E. cbn in E. injection E as ->. exact V'.
  - assert (N : g ++ s <> []) by (destruct O as (b & c & -> & _); discriminate).
    destruct (valid_cons _ V N) as (w & r & W & E & V' & U).
    destruct (encode_nonempty w) as (b & q & Q).
    assert (LG : List.length g = List.length (encode w)).
    { rewrite Q in *. cbn [List.length] in *. apply (utf8_char_octets _ _ _ O U). }
    assert (G : g = encode w).
    { apply (f_equal (firstn (List.length g))) in E. rewrite firstn_app_exact in E.
      rewrite LG, firstn_app_exact in E. exact E. }
    subst g. apply app_inv_head in E. subst r. constructor; auto.
Qed.

Lemma tag_uri_sound_loop o base v s0 r : runs (tag_uri_body o base v) s0 r ->
  forall pre buf st scratch (borrow : bool) rest st' scratch' (borrow' : bool),
  s0 = (buf, st, scratch, borrow) -> r = (rest, st', scratch', borrow') -> base = pre ++ buf ->
  exists t s, buf = t ++ rest /\ rough v t s /\
    (if borrow' then borrow = true /\ t = s /\ scratch' = scratch
     else scratch' = (if borrow then scratch ++ pre else scratch) ++ s) /\
    exists c x, rest = c :: x /\ ~ uri_literal v c /\ c <> 37%N.
Proof.
  induction 1 as [s r B|s s' r B H IH]; intros pre buf st scratch borrow rest st' scratch' borrow' -> E2 EB;
    unfold tag_uri_body in B;
    destruct (cache o buf 1) as [[]|e| |]; cbn [bind] in B; try discriminate;
    (destruct buf as [|b buf]; [discriminate|]);
    destruct (uri_byte b || v && uri_verbatim_byte b) eqn:U.
  - destruct (adv _ _ _) as [[? ?]|e| |]; discriminate.
  - destruct (b =? 37)%N eqn:PC.
    { destruct (tag_uri_unescape o (b :: buf)) as [[out n]|e| |]; cbn [bind] in B; try discriminate.
      destruct (adv _ _ _) as [[? ?]|e| |]; discriminate. }
    injection B as B. rewrite <- B in E2. injection E2 as <- <- <- <-.
    exists [], []. split; [reflexivity|]. split; [constructor|]. split.
    + destruct borrow; [auto|rewrite app_nil_r; reflexivity].
    + exists b, buf. split; [reflexivity|]. split; [rewrite uri_literal_iff; congruence|lia].
  - unfold adv, skip in B. destruct (is_boundary _ 1); cbn [bind] in B; [|discriminate].
    injection B as B. cbn [skipn] in B.
    destruct (IH (pre ++ [b]) _ _ _ _ _ _ _ _ (eq_sym B) E2) as (t & s & -> & R & C & X).
    { rewrite <- app_assoc. exact EB. }
    exists (b :: t), (b :: s). split; [reflexivity|]. split; [constructor; [apply uri_literal_iff, U|exact R]|].
    split; [|exact X]. destruct borrow'.
    + destruct C as (-> & -> & ->). auto.
    + rewrite C. destruct borrow; rewrite <- !app_assoc; reflexivity.
  - destruct (b =? 37)%N eqn:PC; [|discriminate].
    destruct (tag_uri_unescape o (b :: buf)) as [[out n]|e| |] eqn:TU; cbn [bind] in B; try discriminate.
    destruct (unescape_sound _ _ _ _ TU) as (e & rest1 & E & -> & P & O). rewrite E in B.
    unfold adv, skip in B. destruct (is_boundary _ (List.length e)); cbn [bind] in B; [|discriminate].
    injection B as B. rewrite skipn_app_exact in B.
    destruct (IH (pre ++ e) _ _ _ _ _ _ _ _ (eq_sym B) E2) as (t & s & -> & R & C & X).
    { rewrite <- app_assoc, <- E. exact EB. }
    exists (e ++ t), (out ++ s). rewrite E. split; [rewrite <- app_assoc; reflexivity|].
    split; [constructor; auto|]. split; [|exact X].
    destruct borrow'; [destruct C as (C & _); discriminate|].
    rewrite C. destruct borrow; [|rewrite <- app_assoc; reflexivity].
    rewrite EB, E, consumed_app, firstn_app_exact, <- !app_assoc. reflexivity.
Qed.

Lemma literal_valid v t : rough v t t -> valid_utf8 t = true.
Proof.
  intros R. apply valid_iff.
  assert (G : forall t s, rough v t s -> t = s -> Forall (fun b => (b < 128)%N) t).
  { clear. induction 1 as [|b t s L R IH|e g t s P O R IH]; intros E; [constructor| |].
    - constructor; [exact (proj1 (literal_ascii _ _ L))|]. apply IH. congruence.
    - exfalso. apply (f_equal (@List.length _)) in E. rewrite !app_length in E.
      assert (PL : forall e s, percent e s -> List.length e = 3 * List.length s).
      { clear. induction 1; cbn [List.length]; lia. }
      assert (LL : forall t s, rough v t s -> List.length s <= List.length t).
      { clear - PL. induction 1 as [|b t s L S IH|e g t s P O S IH]; [cbn; lia|cbn; lia|].
        rewrite !app_length. specialize (PL _ _ P). lia. }
      specialize (PL _ _ P). specialize (LL _ _ R).
      destruct O as (b & c & -> & _). cbn [List.length] in *. lia. }
  specialize (G _ _ R eq_refl). exists t. split.
  - eapply Forall_imp; [|exact G]. intros b B. cbv beta in B. unfold scalar_value. lia.
  - clear R. induction G as [|b t B G IH]; [reflexivity|]. cbn [flat_map].
    rewrite enc1 by exact B. cbn [app]. f_equal. exact IH.
Qed.

Lemma scan_tag_uri_sound o v base st c amt st' b : scan_tag_uri o base st true v = Ok (c, amt, st', b) ->
  exists t s x r, base = t ++ x :: r /\ spelled v t s /\ ~ uri_literal v x /\ x <> 37%N /\
    amt = List.length t /\ cow_str c = s /\
    (c = Borrowed t /\ b = true \/ c = Owned s /\ b = false).
Proof.
  unfold scan_tag_uri. destruct (loop _ _ _) as [[[[rest st1] scr] bor]|e| |] eqn:L; cbn [bind]; try discriminate.
  apply loop_runs in L.
  destruct (tag_uri_sound_loop o base v _ _ L [] _ _ _ _ _ _ _ _ eq_refl eq_refl eq_refl)
    as (t & s & E & R & C & x & r & -> & NL & NP).
  destruct bor.
  - destruct C as (_ & -> & _). destruct (slice base 0 _) as [w|e| |] eqn:S; cbn [bind]; try discriminate.
    intros X; injection X as <- <- <- <-.
    assert (w = s).
    { unfold slice in S. destruct (_ && _); [|discriminate]. cbn [skipn] in S.
      rewrite Nat.sub_0_r, E, consumed_app, firstn_app_exact in S. congruence. }
    subst w. exists s, s, x, r. rewrite E, consumed_app. repeat split; auto.
    apply rough_spelled; [exact R|]. apply (literal_valid v), R.
  - cbn [app] in C. subst scr. unfold utf8_unwrap. destruct (valid_utf8 s) eqn:V; cbn [bind]; [|discriminate].
    intros X; injection X as <- <- <- <-.
    exists t, s, x, r. rewrite E, consumed_app. repeat split; auto.
    apply rough_spelled; assumption.
Qed.
