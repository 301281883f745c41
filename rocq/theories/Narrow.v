(** Evaluating a deferred quoted scalar: the eager scan of the text up to and including the
    closing quote reads what the eager scan of the whole text reads. *)
From Verif Require Import QuotedFacts PlainSem Utf8Facts SpecUtf8 LazyFacts Loops.
From Verif Require CutFacts.
From Verif Require Export Defer.
From Coq Require Import Lia ZifyBool ZifyN ZifyNat.
Open Scope nat_scope.

Section Flow.
  Variables (o oe : flags) (single : bool).
  Hypothesis OX : extendable o = false.
  Hypothesis EX : extendable oe = false.
  Notation q := (if single then 39 else 34)%N.
  (** ** The eager scan of a beginning of the text that reaches past the closing quote *)
  Section Narrow.
    Variables (base rest : str).
    Hypothesis AB : ascii (base ++ rest).
    Hypothesis NB : base <> [].
    Lemma first_boundary : is_boundary (base ++ rest) 1 = true.
    Proof. apply ascii_boundary; [exact AB|]. destruct base; [congruence|cbn; lia]. Qed.
    (** The state with the rest of the text. *)
    Definition wide (s : fstate) : fstate := mkF (f_buf s ++ rest) (f_st s) (f_scr s) (f_bor s).
    Lemma wide_of s s1 n : f_buf s <> [] -> f_buf (wide s) = skipn n (f_buf s1) -> exists s', s1 = wide s' /\ f_buf s' <> [] /\ List.length (f_buf s) <= List.length (f_buf s').
    Proof.
      intros N E. exists (mkF (firstn n (f_buf s1) ++ f_buf s) (f_st s1) (f_scr s1) (f_bor s1)). unfold wide in *. cbn [f_buf f_st f_scr f_bor] in *.
      rewrite <- app_assoc, E, firstn_skipn. split; [destruct s1; reflexivity|]. split; [intros X; apply app_eq_nil in X; tauto|rewrite app_length; lia].
    Qed.
    Lemma wide_inj s s' : wide s = wide s' -> s = s'.
    Proof.
      destruct s as [b a c d], s' as [b' a' c' d']. unfold wide. cbn [f_buf f_st f_scr f_bor]. intros E.
      assert (b ++ rest = b' ++ rest) as X by congruence. apply app_inv_tail in X. congruence.
    Qed.
    Lemma no_borrow_narrow s w : f_no_borrow (base ++ rest) (wide s) = Ok w -> exists s', w = wide s' /\ f_no_borrow base s = Ok s' /\ f_buf s' = f_buf s.
    Proof.
      unfold f_no_borrow. cbn [wide f_bor f_buf]. destruct (f_bor s) eqn:FB.
      - intros H. apply bind_inv in H as (t & S & H). rewrite consumed_cut in S.
        set (k := consumed base (f_buf s)) in *. assert (K : k <= List.length base) by (unfold k, consumed; lia).
        unfold slice in S. destruct (Nat.leb 1 k) eqn:LE; [|discriminate]. apply Nat.leb_le in LE. cbn [andb] in S.
        assert (t = firstn (k - 1) (skipn 1 (base ++ rest))) as -> by (destruct (_ && _); congruence).
        rewrite slice_ascii; [|eapply ascii_l, AB|exact LE|exact K]. cbn [bind].
        assert (EQ : firstn (k - 1) (skipn 1 (base ++ rest)) = firstn (k - 1) (skipn 1 base)).
        { rewrite skipn_cut by lia. rewrite firstn_app, skipn_length. replace (k - 1 - (List.length base - 1)) with 0 by lia. cbn [firstn]. apply app_nil_r. }
        rewrite EQ in H. eexists. split; [|split; [reflexivity|reflexivity]]. match type of H with Ok ?x = _ => assert (w = x) as -> by congruence end. reflexivity.
      - intros H. exists s. split; [congruence|auto].
    Qed.
    Lemma adv_narrow s n s' : ascii (f_buf s) -> f_buf s' <> [] -> f_adv (wide s) n = Ok (wide s') -> f_adv s n = Ok s' /\ n <= List.length (f_buf s).
    Proof.
      intros A N H. unfold f_adv in *. apply bind_inv in H as ([b st] & A1 & H). apply adv_ok in A1 as (E1 & E2 & _). unfold wide in H; cbn [wide f_buf f_st f_scr f_bor] in *.
      assert (b = f_buf s' ++ rest) as EB by congruence. rewrite EB in E1. symmetry in E1.
      destruct (cut_amount _ _ _ _ E1 (or_introl N)) as [L E3]. rewrite adv_ascii by assumption. cbn [bind].
      split; [|exact L]. rewrite E3. destruct s' as [b' st2 scr' bor']. cbn [f_buf] in *. unfold wide in H. cbn [f_buf f_st f_scr f_bor] in H.
      assert (st = st2) by congruence. assert (f_scr s = scr') by congruence. assert (f_bor s = bor') by congruence. congruence.
    Qed.
    Lemma adv_line_narrow s s' : ascii (f_buf s) -> f_buf s <> [] -> f_buf s' <> [] -> f_adv_line (wide s) = Ok (wide s') -> f_adv_line s = Ok s'.
    Proof.
      intros A NS N H. unfold f_adv_line in *. apply bind_inv in H as ([b st] & A1 & H). apply adv_line_ok in A1 as (E1 & E2 & _). unfold wide in H; cbn [wide f_buf f_st f_scr f_bor] in *.
      assert (b = f_buf s' ++ rest) as EB by congruence. rewrite EB in E1. symmetry in E1.
      destruct (cut_amount _ _ _ _ E1 (or_introl N)) as [L E3]. pose proof (amt_cut _ _ A NS L) as K.
      rewrite adv_line_ascii by assumption. cbn [bind]. rewrite K.
      rewrite E3. destruct s' as [b' st2 scr' bor']. cbn [f_buf] in *. unfold wide in H. cbn [f_buf f_st f_scr f_bor] in H.
      assert (st = st2) by congruence. assert (f_scr s = scr') by congruence. assert (f_bor s = bor') by congruence. congruence.
    Qed.
    Lemma push_narrow s t : f_push (wide s) t = wide (f_push s t).
    Proof. reflexivity. Qed.
    Lemma push_head_narrow s : f_buf s <> [] -> f_push_head (wide s) = wide (f_push_head s).
    Proof. intros N. unfold f_push_head. cbn [wide f_bor f_buf]. destruct (f_bor s); [reflexivity|]. destruct (f_buf s); [congruence|]. reflexivity. Qed.
    Lemma unescape_narrow x w n : ascii x -> at_is x 0 92 = true -> flow_unescape o (x ++ rest) = Ok (w, n) -> n <= List.length x -> flow_unescape oe x = Ok (w, n).
    Proof.
      intros A C U L. assert (C' : at_is (x ++ rest) 0 92 = true) by (rewrite at_cut; [exact C|apply at_is_nonempty in C; exact C]).
      destruct (unescape_denotes _ _ _ _ C' U) as (e & v & EQ & LE & DE & ->).
      assert (X : x = e ++ skipn n x).
      { rewrite skipn_cut in EQ by exact L. rewrite app_assoc in EQ. apply app_inv_tail in EQ. exact EQ. }
      rewrite X. rewrite (denotes_unescape oe e v); [rewrite LE; reflexivity|exact EX|exact DE|].
      apply valid_head, valid_ascii, ascii_skipn, A.
    Qed.

    Lemma word_narrow s esc s' esc' : ascii (f_buf s) -> f_buf s' <> [] -> List.length (f_buf s') < List.length (f_buf s) ->
      flow_word_body o (base ++ rest) single (wide s, esc) = Ok (Next (wide s', esc')) ->
      flow_word_body oe base single (s, esc) = Ok (Next (s', esc')).
    Proof.
      intros A N L. assert (L2 : 2 <= List.length (f_buf s)) by (destruct (f_buf s'); [congruence|cbn [List.length] in L; lia]).
      assert (NS : f_buf s <> []) by (destruct (f_buf s); [cbn in L2; lia|discriminate]).
      unfold flow_word_body. rewrite !cache_static by (exact OX || exact EX). cbn [bind]. change (f_buf (wide s)) with (f_buf s ++ rest).
      rewrite wsZ_cut, !at_cut, skipn_cut, break_cut by (assumption || lia || (apply ascii_skipn; assumption) || (intros X; apply (f_equal (@List.length byte)) in X; rewrite skipn_length in X; cbn in X; lia)).
      destruct (is_wsZ (f_buf s)) eqn:W; [discriminate|].
      destruct (single && at_is (f_buf s) 0 39 && at_is (f_buf s) 1 39) eqn:P1.
      { intros B. apply bind_inv in B as (w1 & N1 & B). apply no_borrow_narrow in N1 as (s1 & -> & -> & E1). cbn [bind].
        rewrite push_narrow in B. apply bind_inv in B as (w2 & A2 & B). assert (w2 = wide s') as -> by congruence. assert (esc' = esc) as -> by congruence.
        apply adv_narrow in A2 as [-> _]; [reflexivity|cbn [f_push f_buf]; rewrite E1; exact A|exact N]. }
      destruct (single && at_is (f_buf s) 0 39 || negb single && at_is (f_buf s) 0 34) eqn:P2; [discriminate|].
      destruct (negb single && at_is (f_buf s) 0 92 && is_break (skipn 1 (f_buf s))) eqn:P3.
      { intros B. apply bind_inv in B as (w1 & N1 & B). apply no_borrow_narrow in N1 as (s1 & -> & -> & E1). cbn [bind].
        apply bind_inv in B as (w2 & A2 & B). assert (w2 = wide s') as -> by congruence. assert (esc' = EStart) as -> by congruence.
        apply adv_narrow in A2 as [-> _]; [reflexivity|rewrite E1; exact A|exact N]. }
      destruct (negb single && at_is (f_buf s) 0 92) eqn:P4.
      { intros B. apply bind_inv in B as (w1 & N1 & B). apply no_borrow_narrow in N1 as (s1 & -> & -> & E1). cbn [bind].
        apply bind_inv in B as ([w n] & U & B). apply bind_inv in B as (w2 & A2 & B). rewrite push_narrow in A2.
        assert (w2 = wide s') as -> by congruence. assert (esc' = esc) as -> by congruence.
        apply adv_narrow in A2 as [A2 LN]; [|cbn [f_push f_buf]; rewrite E1; exact A|exact N]. cbn [wide f_buf f_push] in U, LN.
        apply unescape_narrow in U; [rewrite U; cbn [bind]; rewrite A2; reflexivity|rewrite E1; exact A| |exact LN].
        rewrite E1. apply andb_true_iff in P4. tauto. }
      intros B. rewrite push_head_narrow in B by exact NS. apply bind_inv in B as (w2 & A2 & B).
      assert (w2 = wide s') as -> by congruence. assert (esc' = esc) as -> by congruence.
      apply adv_narrow in A2 as [-> _]; [reflexivity|destruct (push_head_st s) as [-> _]; exact A|exact N].
    Qed.
    Lemma word_done_narrow s esc rs : ascii (f_buf s) -> f_buf s <> [] ->
      flow_word_body o (base ++ rest) single (wide s, esc) = Ok (Done rs) -> exists esc' c, rs = (wide s, esc', c) /\
      flow_word_body oe base single (s, esc) = Ok (Done (s, esc', c)).
    Proof.
      intros A N. unfold flow_word_body. rewrite !cache_static by (exact OX || exact EX). cbn [bind]. change (f_buf (wide s)) with (f_buf s ++ rest).
      assert (L1 : 0 < List.length (f_buf s)) by (destruct (f_buf s); [congruence|cbn; lia]).
      rewrite wsZ_cut, !(at_cut (f_buf s) rest 0) by assumption.
      destruct (is_wsZ (f_buf s)) eqn:W; [intros H; exists esc, false; split; [congruence|reflexivity]|].
      destruct (single && at_is (f_buf s) 0 39 && at_is (f_buf s ++ rest) 1 39) eqn:P1.
      { intros B. apply bind_inv in B as (w1 & _ & B). apply bind_inv in B as (w2 & _ & B). discriminate. }
      assert (P1' : single && at_is (f_buf s) 0 39 && at_is (f_buf s) 1 39 = false).
      { destruct (at_is (f_buf s) 1 39) eqn:X; [|apply andb_false_r]. rewrite at_cut in P1 by (apply at_is_nonempty in X; exact X). rewrite X in P1. exact P1. }
      rewrite P1'. destruct (single && at_is (f_buf s) 0 39 || negb single && at_is (f_buf s) 0 34) eqn:P2.
      { intros H. exists esc, true. split; [congruence|reflexivity]. }
      intros B. exfalso. destruct (negb single && at_is (f_buf s) 0 92 && _).
      { apply bind_inv in B as (w1 & _ & B). apply bind_inv in B as (w2 & _ & B). discriminate. }
      destruct (negb single && at_is (f_buf s) 0 92).
      { apply bind_inv in B as (w1 & _ & B). apply bind_inv in B as ([w n] & _ & B). apply bind_inv in B as (w2 & _ & B). discriminate. }
      apply bind_inv in B as (s2 & _ & B). discriminate.
    Qed.
    Lemma wide_ascii s : ascii (f_buf s) -> ascii (f_buf (wide s)).
    Proof. intros A. cbn [wide f_buf]. apply ascii_app; [exact A|eapply ascii_r, AB]. Qed.

    Lemma word_runs_narrow p r : runs (flow_word_body o (base ++ rest) single) p r -> ascii (f_buf (fst p)) -> (single = false -> no_double (f_buf (fst p))) ->
      forall s rs e c, fst p = wide s -> r = (wide rs, e, c) -> f_buf rs <> [] -> f_buf s <> [] ->
      runs (flow_word_body oe base single) (s, snd p) (rs, e, c).
    Proof.
      induction 1 as [[w esc] r B|[w esc] [w1 esc1] r B H IH]; cbn [fst snd]; intros A D s rs e c -> -> NR NS.
      - assert (AS : ascii (f_buf s)) by (eapply ascii_l, A).
        apply word_done_narrow in B as (e' & c' & E1 & E2); [|assumption..].
        assert (wide rs = wide s) as X by congruence. apply wide_inj in X. subst rs.
        apply runs_done. rewrite E2. congruence.
      - assert (AS : ascii (f_buf s)) by (eapply ascii_l, A).
        pose proof (word_reach o o single OX OX _ _ _ _ _ A D B) as R1. destruct (reach_suffix _ _ OX _ _ R1) as (n & E). cbn [fst] in E.
        assert (A1 : ascii (f_buf w1)) by (rewrite E; apply ascii_skipn, A).
        assert (D1 : single = false -> no_double (f_buf w1)) by (intros F; rewrite E; apply no_double_skipn, D, F).
        destruct (word_runs o o single OX OX _ _ _ H A1 D1) as [R2 _]. cbn [fst] in R2. destruct (reach_suffix _ _ OX _ _ R2) as (m & E2). cbn [fst] in E2.
        destruct (wide_of rs w1 m NR E2) as (s1 & -> & N1 & _).
        eapply runs_next; [|eapply (IH A1 D1 s1); eauto]. apply word_narrow; [exact AS|exact N1| |exact B].
        pose proof (word_measure _ _ _ first_boundary OX _ _ B) as M. cbn [fst wide f_buf] in M. rewrite !app_length in M. lia.
    Qed.

    (** White space and joining. *)
    Lemma ws_narrow s esc ws lines s' esc' ws' lines' : ascii (f_buf s) -> f_buf s <> [] -> f_buf s' <> [] ->
      flow_ws_body o (base ++ rest) (wide s, esc, ws, lines) = Ok (Next (wide s', esc', ws', lines')) ->
      flow_ws_body oe base (s, esc, ws, lines) = Ok (Next (s', esc', ws', lines')).
    Proof.
      intros A NS N. unfold flow_ws_body. rewrite !cache_static by (exact OX || exact EX). cbn [bind]. change (f_buf (wide s)) with (f_buf s ++ rest).
      rewrite blank_cut, break_cut by assumption. destruct (is_blank (f_buf s)).
      { rewrite push_head_narrow by exact NS. intros B. apply bind_inv in B as (w2 & A2 & B).
        assert (w2 = wide s') as -> by congruence. apply adv_narrow in A2 as [-> _]; [cbn [bind]; congruence|destruct (push_head_st s) as [-> _]; exact A|exact N]. }
      destruct (is_break (f_buf s)); [|discriminate].
      intros B. apply bind_inv in B as (w1 & N1 & B). apply no_borrow_narrow in N1 as (s1 & -> & -> & E1). cbn [bind].
      destruct (match esc with EStart => _ | _ => _ end) as [e1 w1]. apply bind_inv in B as (w2 & A2 & B).
      assert (w2 = wide s') as -> by congruence. apply adv_line_narrow in A2; [rewrite A2; cbn [bind]; congruence|rewrite E1; assumption..|exact N].
    Qed.
    Lemma ws_done_narrow s esc ws lines r : ascii (f_buf s) -> f_buf s <> [] ->
      flow_ws_body o (base ++ rest) (wide s, esc, ws, lines) = Ok (Done r) -> r = (wide s, esc, ws, lines) /\
      flow_ws_body oe base (s, esc, ws, lines) = Ok (Done (s, esc, ws, lines)).
    Proof.
      intros A NS. unfold flow_ws_body. rewrite !cache_static by (exact OX || exact EX). cbn [bind]. change (f_buf (wide s)) with (f_buf s ++ rest).
      rewrite blank_cut, break_cut by assumption. destruct (is_blank (f_buf s)).
      { intros B. apply bind_inv in B as (w2 & A2 & B). discriminate. }
      destruct (is_break (f_buf s)).
      { intros B. apply bind_inv in B as (w1 & N1 & B). destruct (match esc with EStart => _ | _ => _ end) as [e1 w2]. apply bind_inv in B as (w3 & A2 & B). discriminate. }
      intros B. split; [congruence|reflexivity].
    Qed.
    Lemma ws_runs_narrow p r : runs (flow_ws_body o (base ++ rest)) p r -> ascii (f_buf (fst (fst (fst p)))) ->
      forall s rs esc ws lines e w l, p = (wide s, esc, ws, lines) -> r = (wide rs, e, w, l) -> f_buf rs <> [] -> f_buf s <> [] ->
      runs (flow_ws_body oe base) (s, esc, ws, lines) (rs, e, w, l).
    Proof.
      induction 1 as [p r B|p [[[w1 esc1] ws1] lines1] r B H IH]; intros A s rs esc ws lines e w l -> -> NR NS; cbn [fst] in A.
      - assert (AS : ascii (f_buf s)) by (eapply ascii_l, A).
        apply ws_done_narrow in B as (E1 & E2); [|assumption..].
        assert (wide rs = wide s) as X by congruence. apply wide_inj in X. subst rs.
        apply runs_done. rewrite E2. congruence.
      - assert (AS : ascii (f_buf s)) by (eapply ascii_l, A).
        pose proof (ws_reach o o single OX OX _ _ _ _ _ _ _ _ _ A B) as R1. destruct (reach_suffix _ _ OX _ _ R1) as (n & E). cbn [fst] in E.
        assert (A1 : ascii (f_buf w1)) by (rewrite E; apply ascii_skipn, A).
        pose proof (ws_runs o o single OX OX _ _ _ H A1) as R2. cbn [fst] in R2. destruct (reach_suffix _ _ OX _ _ R2) as (m & E2). cbn [fst] in E2.
        destruct (wide_of rs w1 m NR E2) as (s1 & -> & N1 & _).
        eapply runs_next; [|eapply (IH A1 s1); eauto]. apply ws_narrow; assumption.
    Qed.
    Lemma join_narrow s esc ws lines w : flow_join (base ++ rest) (wide s) esc ws lines = Ok w ->
      exists s', w = wide s' /\ flow_join base s esc ws lines = Ok s' /\ f_buf s' = f_buf s.
    Proof.
      unfold flow_join. destruct lines as [|n]; [intros H; exists s; split; [congruence|auto]|].
      intros H. apply bind_inv in H as (w1 & N1 & H). apply no_borrow_narrow in N1 as (s1 & -> & -> & E1). cbn [bind].
      apply bind_inv in H as (scr & C & H). cbn [wide f_scr] in C. rewrite C. cbn [bind].
      destruct n; [destruct esc|]; match type of H with Ok ?x = _ => assert (w = x) as -> by congruence end; (eexists; split; [|split; [reflexivity|exact E1]]; reflexivity).
    Qed.

    (** ** The loop *)
    Lemma doc_narrow x at0 m : ascii x -> skipn m x = [q] -> is_doc_indicator (x ++ rest) at0 = false -> is_doc_indicator x at0 = false.
    Proof.
      intros A E. destruct (is_doc_indicator x at0) eqn:D; [|reflexivity]. intros D2. exfalso.
      assert (L : 4 <= List.length x).
      { unfold is_doc_indicator in D. apply andb_true_iff in D as [D _]. apply andb_true_iff in D as [_ D].
        change (bytes "---") with [45;45;45]%N in D. change (bytes "...") with [46;46;46]%N in D.
        destruct x as [|a [|b [|c [|d x]]]]; try (cbn [List.length]; lia); exfalso; cbn [starts_with orb] in D;
          rewrite ?andb_false_r in D; try discriminate D.
        assert (a = c /\ b = c /\ (c = 45 \/ c = 46))%N as (-> & -> & X) by (clear - D; lia).
        destruct m as [|[|[|m]]]; cbn [skipn] in E; try discriminate E; [|destruct m; discriminate E].
        assert (c = q) as Y by congruence. clear - X Y. destruct single; lia. }
      rewrite CutFacts.doc_app in D2; [congruence| |exact L].
      split; apply valid_ascii; [exact A|eapply ascii_r, AB].
    Qed.
    Lemma body_runs_narrow w r : runs (flow_body o (base ++ rest) single) w r -> ascii (f_buf w) -> (single = false -> no_double (f_buf w)) ->
      forall s rs, w = wide s -> r = wide rs -> f_buf rs = [q] -> f_buf s <> [] -> List.length (f_buf s) <= List.length base ->
      runs (flow_body oe base single) s rs.
    Proof.
      induction 1 as [w r B|w w1 r B H IH]; intros A D s rs -> -> ER NS LB; pose proof B as BB;
        unfold flow_body in B; rewrite cache_static in B by exact OX; cbn [bind] in B;
        (destruct (is_doc_indicator _ _) eqn:DI; [discriminate|]); (destruct (is_empty (f_buf (wide s))) eqn:EM; [discriminate|]);
        rewrite cache_static in B by exact OX; cbn [bind] in B; apply bind_inv in B as ([[s2 esc2] c] & W & B);
        unfold flow_word in W; apply loop_runs in W.
      all: assert (AS : ascii (f_buf s)) by (eapply ascii_l, A).
      all: assert (NR : f_buf rs <> []) by (rewrite ER; discriminate).
      all: destruct (word_runs o o single OX OX _ _ _ W A D) as [R2 _]; cbn [fst] in R2; destruct (reach_suffix _ _ OX _ _ R2) as (n2 & E2); cbn [fst] in E2.
      all: assert (MU : forall a b : fstate * esc_state, flow_word_body oe base single a = Ok (Next b) -> List.length (f_buf (fst b)) < List.length (f_buf (fst a)))
        by (apply word_measure; [apply ascii_boundary; [eapply ascii_l, AB|destruct base; [congruence|cbn; lia]]|exact EX]).
      all: unfold flow_body at 1; try rewrite cache_static by exact EX; cbn [bind].
      - destruct c; [|apply bind_inv in B as ([[[s3 esc3] ws] lines] & _ & B); apply bind_inv in B as (s4 & _ & B); discriminate].
        assert (s2 = wide rs) as -> by congruence.
        pose proof (word_runs_narrow _ _ W A D s rs esc2 true eq_refl eq_refl NR NS) as WN. cbn [snd] in WN.
        apply runs_done. unfold flow_body. rewrite !cache_static by exact EX. cbn [bind].
        assert (EN : skipn n2 (f_buf s) = f_buf rs) by (apply (cut_amount _ rest); [symmetry; exact E2|left; exact NR]).
        rewrite (doc_narrow (f_buf s) (scol (f_st s)) n2 AS (eq_trans EN ER) DI).
        destruct (f_buf s) as [|x y] eqn:FB; [congruence|]. cbn [is_empty]. unfold flow_word.
        erewrite (runs_fuel _ _ _ _ WN MU); [reflexivity|]. cbn [fst]. rewrite FB. unfold fuel_of. lia.
      - destruct c; [discriminate|].
        apply bind_inv in B as ([[[s3 esc3] ws] lines] & V & B). apply bind_inv in B as (s4 & J & B).
        assert (s4 = w1) as -> by congruence. unfold flow_ws in V. apply loop_runs in V.
        assert (A2 : ascii (f_buf s2)) by (rewrite E2; apply ascii_skipn, A).
        pose proof (ws_runs o o single OX OX _ _ _ V A2) as R3. cbn [fst] in R3. destruct (reach_suffix _ _ OX _ _ R3) as (n3 & E3). cbn [fst] in E3.
        pose proof (join_st _ _ _ _ _ _ J) as [E4 _].
        assert (A3 : ascii (f_buf w1)) by (rewrite E4, E3; apply ascii_skipn, A2).
        assert (D2 : single = false -> no_double (f_buf s2)) by (intros F; rewrite E2; apply no_double_skipn, D, F).
        assert (D3 : single = false -> no_double (f_buf w1)) by (intros F; rewrite E4, E3; apply no_double_skipn, D2, F).
        destruct (body_runs o o single OX OX _ _ _ H A3 D3) as [R5 _]. destruct (reach_suffix _ _ OX _ _ R5) as (n5 & E5). cbn [fst] in E5.
        destruct (wide_of rs w1 n5 NR E5) as (t1 & T1 & N1 & _).
        assert (E4' : f_buf (wide t1) = skipn 0 (f_buf s3)) by (rewrite <- T1; exact E4).
        destruct (wide_of t1 s3 0 N1 E4') as (t3 & T3 & N3 & _).
        assert (E3' : f_buf (wide t3) = skipn n3 (f_buf s2)) by (rewrite <- T3; exact E3).
        destruct (wide_of t3 s2 n3 N3 E3') as (t2 & T2 & N2 & _). subst w1 s3 s2.
        pose proof (word_runs_narrow _ _ W A D s t2 esc2 false eq_refl eq_refl N2 NS) as WN. cbn [snd] in WN.
        pose proof (ws_runs_narrow _ _ V A2 t2 t3 esc2 0 0 esc3 ws lines eq_refl eq_refl N3 N2) as VN.
        apply join_narrow in J as (t1' & T1 & JN & E6). apply wide_inj in T1. subst t1'.
        assert (C2 : skipn n2 (f_buf s) = f_buf t2) by (apply (cut_amount _ rest); [symmetry; exact E2|left; exact N2]).
        assert (C3 : skipn n3 (f_buf t2) = f_buf t3) by (apply (cut_amount _ rest); [symmetry; exact E3|left; exact N3]).
        assert (C5 : skipn n5 (f_buf t1) = f_buf rs) by (apply (cut_amount _ rest); [symmetry; exact E5|left; exact NR]).
        eapply runs_next; [|apply (IH A3 D3 t1 rs eq_refl eq_refl ER N1)].
        + unfold flow_body. rewrite !cache_static by exact EX. cbn [bind].
          rewrite (doc_narrow (f_buf s) (scol (f_st s)) (n2 + n3 + n5) AS) by (try (rewrite <- !skipn_skipn, C2, C3, <- E6, C5; exact ER); exact DI).
          destruct (f_buf s) as [|x y] eqn:FB; [congruence|]. cbn [is_empty]. unfold flow_word.
          rewrite (runs_fuel _ _ _ _ WN MU) by (cbn [fst]; rewrite FB; unfold fuel_of; lia). cbn [bind]. unfold flow_ws.
          erewrite (runs_fuel _ _ _ _ VN); [cbn [bind]; rewrite JN; reflexivity|
            apply (ws_measure oe base); [apply ascii_boundary; [eapply ascii_l, AB|destruct base; [congruence|cbn; lia]]|exact EX]|].
          cbn [fst]. unfold fuel_of. lia.
        + rewrite E6, <- C3, skipn_length, <- C2, skipn_length. lia.
    Qed.
  End Narrow.

  (** ** The text up to the closing quote is enough *)
  Lemma flow_prefix r st t n st' : ascii (q :: r) -> (single = false -> no_double (q :: r)) ->
    scan_flow_scalar_eager o (q :: r) st single = Ok (t, n, st') ->
    scan_flow_scalar_eager oe (firstn n (q :: r)) st single = Ok (t, n, st').
  Proof.
    intros A D E. set (whole := q :: r) in *.
    unfold scan_flow_scalar_eager in E. rewrite cache_static in E by exact OX. cbn [bind] in E.
    apply bind_inv in E as (s0 & A0 & E). apply bind_inv in E as (s1 & L & E). apply bind_inv in E as (txt & T & E).
    rewrite cache_static in E by exact OX. cbn [bind] in E.
    apply bind_inv in E as (s2 & A2 & E).
    assert (n = consumed whole (f_buf s2)) as EN by congruence. assert (st' = f_st s2) as -> by congruence.
    assert (t = TScalar txt (if single then SingleQuote else DoubleQuote)) as -> by congruence. clear E.
    unfold f_adv in A0. cbn [f_buf f_st f_scr f_bor] in A0. rewrite adv_ascii in A0 by (assumption || apply le_n_S, Nat.le_0_l). cbn [bind] in A0.
    match type of A0 with Ok ?x = _ => assert (s0 = x) as -> by congruence end. clear A0.
    apply loop_runs in L.
    assert (A1 : ascii (skipn 1 whole)) by (apply ascii_skipn, A).
    assert (D1 : single = false -> no_double (skipn 1 whole)) by (intros F; apply no_double_skipn, D, F).
    destruct (body_runs o o single OX OX _ _ _ L A1 D1) as (R & C1 & C2). destruct (reach_suffix _ _ OX _ _ R) as (k & EK). cbn [fst f_buf] in EK.
    pose proof (f_adv_st _ _ _ A2) as A3. apply adv_ok in A3 as (E3 & E4 & _).
    destruct (f_buf s1) as [|c rest] eqn:FB; [discriminate|]. assert (c = q) as -> by (unfold at_is in C1; cbn [nth_error] in C1; apply N.eqb_eq in C1; exact C1).
    cbn [skipn] in E3. rewrite E3 in EN.
    assert (EW : whole = firstn n whole ++ rest).
    { assert (skipn n whole = rest) as <-; [|symmetry; apply firstn_skipn].
      assert (X : rest = skipn (1 + k + 1) whole) by (rewrite <- !skipn_skipn, <- EK; reflexivity).
      rewrite X. apply (f_equal (@List.length byte)) in X. rewrite skipn_length in X.
      apply (f_equal (@List.length byte)) in EK. rewrite !skipn_length in EK. cbn [List.length] in EK.
      unfold consumed in EN. assert (n = 1 + k + 1) as -> by (clear - EN EK X; clearbody whole; unfold byte in *; lia). reflexivity. }
    assert (LN : 2 <= n).
    { apply (f_equal (@List.length byte)) in EK. rewrite !skipn_length in EK. cbn [List.length] in EK. unfold consumed in EN. clear - EN EK; clearbody whole; unfold byte in *; lia. }
    set (pre := firstn n whole) in *. clearbody pre.
    assert (LP : List.length pre = n) by (rewrite EN, EW; unfold consumed; rewrite app_length; lia).
    assert (AP : ascii (pre ++ rest)) by (rewrite <- EW; exact A).
    assert (NP : pre <> []) by (intros ->; cbn in LP; lia).
    assert (AQ : ascii pre) by (eapply ascii_l, AP).
    rewrite EW in L. set (s0 := mkF (skipn 1 pre) (supd st 1 0 1) [] true).
    set (s1' := mkF [q] (f_st s1) (f_scr s1) (f_bor s1)).
    assert (W0 : mkF (skipn 1 (pre ++ rest)) (supd st 1 0 1) [] true = wide rest s0) by (unfold wide, s0; cbn [f_buf f_st f_scr f_bor]; rewrite skipn_cut by lia; reflexivity).
    assert (W1 : s1 = wide rest s1') by (unfold wide, s1'; cbn [f_buf f_st f_scr f_bor app]; rewrite <- FB; destruct s1; reflexivity).
    assert (N0 : f_buf s0 <> []).
    { cbn [s0 f_buf]. intros X. apply (f_equal (@List.length byte)) in X. rewrite skipn_length in X. cbn in X. lia. }
    assert (L0 : List.length (f_buf s0) <= List.length pre) by (cbn [s0 f_buf]; rewrite skipn_length; lia).
    rewrite <- EW in W0.
    assert (BN : runs (flow_body oe pre single) s0 s1').
    { rewrite EW in A1, D1, W0. apply (body_runs_narrow pre rest AP NP _ _ L A1 D1 s0 s1' W0 W1 eq_refl N0 L0). }
    unfold scan_flow_scalar_eager. rewrite cache_static by exact EX. cbn [bind]. unfold f_adv at 1. cbn [f_buf f_st f_scr f_bor].
    rewrite adv_ascii by (assumption || lia). cbn [bind].
    assert (Q : (q < 128)%N /\ q <> 10%N /\ q <> 13%N) by (destruct single; lia).
    assert (HP : exists p, pre = q :: p).
    { destruct pre as [|a p]; [congruence|]. exists p. unfold whole in EW. cbn [app] in EW. congruence. }
    destruct HP as (p & HP).
    assert (AQ' : ascii (q :: p)) by (rewrite <- HP; exact AQ).
    pose proof (scan_flow_eager_leaf oe q p st single (conj (proj1 (proj2 Q)) (conj (proj2 (proj2 Q)) (proj1 Q)))) as LF. rewrite <- HP in LF.
    unfold scan_flow_scalar_eager in LF. rewrite cache_static in LF by exact EX. cbn [bind] in LF. unfold f_adv at 1 in LF. cbn [f_buf f_st f_scr f_bor] in LF.
    rewrite adv_ascii in LF by (assumption || lia). cbn [bind] in LF. fold s0 in LF |- *.
    rewrite (runs_loop _ _ _ BN _ (leaf_fuel _ _ _ _ _ LF)). cbn [bind].
    assert (CS : consumed pre (f_buf s1') = consumed whole (f_buf s1)).
    { rewrite EW, FB. unfold consumed. rewrite app_length. cbn [s1' f_buf List.length]. lia. }
    assert (TX : (if f_bor s1' then let* x := slice pre 1 (consumed pre (f_buf s1')) in Ok (Borrowed x) else let* x := utf8_unwrap (f_scr s1') in Ok (Owned x) : sres cow) = Ok txt).
    { rewrite CS. cbn [s1' f_bor f_scr]. destruct (f_bor s1); [|exact T]. rewrite <- FB in T. rewrite slice_ascii in *; try assumption; try (unfold consumed; lia).
      - cbn [bind] in *. rewrite <- T. do 2 f_equal. rewrite EW. rewrite skipn_cut by lia. rewrite firstn_app, skipn_length.
        match goal with |- _ = _ ++ firstn ?j _ => replace j with 0 by (rewrite FB; unfold consumed; rewrite app_length; cbn [List.length]; lia) end.
        symmetry. apply app_nil_r.
      - rewrite FB. unfold consumed. rewrite EW, app_length. cbn [List.length]. lia.
      - rewrite FB. unfold consumed. rewrite EW, app_length. cbn [List.length]. lia.
      - rewrite FB. unfold consumed. rewrite EW, app_length. cbn [List.length]. lia. }
    rewrite TX. cbn [bind]. rewrite cache_static by exact EX. cbn [bind]. unfold f_adv.
    rewrite adv_ascii; [|constructor; [exact (proj1 Q)|constructor]|apply le_n_S, Nat.le_0_l]. cbn [bind f_buf f_st s1' skipn].
    unfold consumed at 1. cbn [List.length]. rewrite Nat.sub_0_r, LP. rewrite E4. reflexivity.
  Qed.
End Flow.
