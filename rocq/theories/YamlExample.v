(** A stream, derived by hand. *)
From Verif Require Export YamlEvents.
From Verif Require Import PlainSem QuotedFacts PlainStream ContentFacts SpecBlock SpecYaml.
From Coq Require Import Lia ZifyBool ZifyN ZifyNat.
Open Scope nat_scope.

Ltac go_reads := repeat first
  [ apply reads_here
  | eapply reads_break; [reflexivity|reflexivity|cbn]
  | eapply (reads_text _ 1); [cbn; lia|intros [|k] K; [reflexivity|lia]|reflexivity|cbn] ].
Ltac go_skips := repeat first
  [ apply sk_end; reflexivity | apply sk_eof
  | apply sk_blank; [reflexivity|cbn] | apply sk_break; [reflexivity|cbn]
  | apply sk_open; [reflexivity|cbn] | apply sk_comment; [discriminate|reflexivity|cbn] ].
Ltac go_apart := split; [cbn; go_skips|unfold moves; cbn; go_reads].
Ltac go_char := split; reflexivity.
Lemma plain_letter flow indent k c s v r : (c <? 128)%N = true -> is_ws (c :: s) = false -> plain_end flow (c :: s) = false ->
  plain flow indent (S k) s v r -> plain flow indent k (c :: s) (c :: v) r.
Proof.
  intros C W E P. change (c :: s) with ([c] ++ s). change (c :: v) with ([c] ++ v). rewrite <- (encode_ascii c) by lia.
  apply pl_char; rewrite ?encode_ascii by lia; [unfold scalar_value; lia|apply not_white, W|apply not_closed, E|exact P].
Qed.
Lemma plain_close flow indent k s : is_empty s || plain_end flow s = true -> plain flow indent k s [] s.
Proof. intros H. apply pl_end. apply orb_true_iff in H as [H|H]; [left; destruct s; [reflexivity|discriminate]|right; apply closed_iff, H]. Qed.
Lemma plain_halt (block : bool) indent k n s k' s' : is_ws s = true -> space k n s k' s' ->
  is_empty s' || (block && Nat.ltb k' indent) || is_doc_indicator s' k' || at_is s' 0 35 || plain_end (negb block) s' = true ->
  plain (negb block) indent k s [] s.
Proof.
  intros W SP H. apply pl_stop with (n := n) (k' := k') (s' := s'); [apply white_iff, W|exact SP|].
  intros G. apply goes_on_iff in G. congruence.
Qed.
Ltac go_space := repeat first
  [ apply sp_end; apply not_white; reflexivity
  | apply sp_blank; [left; reflexivity|cbn]
  | apply sp_break; [discriminate|cbn] ].
Ltac go_plain block := cbn; first
  [ apply plain_letter; [reflexivity|reflexivity|reflexivity|go_plain block]
  | apply plain_close; reflexivity
  | eapply (plain_halt block); [reflexivity|go_space|reflexivity] ].
Ltac go_scalar block := apply sc_plain;
  [ cbn; eexists _, _; split; [reflexivity|]; split; [apply not_white; reflexivity|]; split; cbn; intuition discriminate
  | cbn; intros _; split; intros (q & Q); discriminate
  | cbn; intros (Q & M); apply document_marker_iff in M; discriminate
  | go_plain block
  | unfold moves; cbn; go_reads ].
Ltac go_loose := first [left; reflexivity | right; apply white_iff; reflexivity].

Ltac go_bare := eexists; split; [apply pr_nil|apply ga_none].
Ltac go_name := split; [reflexivity|]; split; [discriminate|]; split; [cbn; repeat (apply Forall_cons; [unfold alphanumeric; lia|]); apply Forall_nil|]; split; [eexists; split; [|eexists; reflexivity]; cbn; auto 12|unfold moves; cbn; go_reads].

(** %TAG !e! x:
    ---
    a: &x [b, 'c']
    d: |
     f
    g:
    - *x
    - !e!int 1
    ...
     ? z
     : y
    --- *)
Definition sample : str :=
  bytes "%TAG !e! x:" ++ [10%N] ++ bytes "---" ++ [10%N] ++
  bytes "a: &x [b, 'c']" ++ [10%N] ++ bytes "d: |" ++ [10%N] ++ bytes " f" ++ [10%N] ++ bytes "g:" ++ [10%N] ++
  bytes "- *x" ++ [10%N] ++ bytes "- !e!int 1" ++ [10%N] ++ bytes "..." ++ [10%N] ++ bytes " ? z" ++ [10%N] ++ bytes " : y" ++ [10%N] ++ bytes "---" ++ [10%N].
Definition spot (n l c : nat) : place := (skipn n sample, mkStats n l c).
Definition named : about := mkAbout Value (Some (bytes "x")) None.
Definition tagged : about := mkAbout Entry None (Some (bytes "!e!", bytes "int")).
Definition text_of (k : node_kind) (v : str) (style : scalar_style) : deed := Text (scalar_about (bare k)) v style.
Definition sample_first : list deed :=
  [OpenMap (bare Root); text_of Key (bytes "a") Plain;
     OpenSeq named; text_of Entry (bytes "b") Plain; text_of Entry (bytes "c") SingleQuote; CloseSeq;
   text_of Key (bytes "d") Plain; text_of Value (bytes "f" ++ [10%N]) Literal;
   text_of Key (bytes "g") Plain; OpenSeq (bare Value); Alias (bytes "x"); Text tagged (bytes "1") Plain; CloseSeq; CloseMap].
Definition sample_second : list deed :=
  [OpenMap (bare Root); text_of Key (bytes "z") Plain; text_of Value (bytes "y") Plain; CloseMap].
Definition default_tags_shown : list (str * str) := [(bytes "!", bytes "!"); (bytes "!!", bytes "tag:yaml.org,2002:")].
Definition sample_deeds : list deed :=
  Begin (1, 2)%N (default_tags_shown ++ [(bytes "!e!", bytes "x:")]) false :: sample_first ++
  [Finish false;
   Begin (1, 2)%N default_tags_shown true] ++ sample_second ++
  [Finish true;
   Begin (1, 2)%N default_tags_shown false; Finish true].
Definition sample_directives : list SpecYaml.directive := [TagPrefix (bytes "!e!") (bytes "x:")].
Notation H := (handles_of sample_directives).

Lemma sample_flow : flow_seq H true (spot 23 2 7)
  [text_of Entry (bytes "b") Plain; text_of Entry (bytes "c") SingleQuote; CloseSeq] (spot 30 2 14).
Proof.
  apply (fs_entry H _ [text_of Entry (bytes "b") Plain] (spot 24 2 8)).
  { apply fn_body with (ab := bare Entry) (p1 := spot 23 2 7); [go_bare|]. apply fb_atom with (p0 := spot 23 2 7); [go_apart|apply at_scalar; go_scalar false]. }
  apply fs_comma with (p0 := spot 24 2 8) (p1 := spot 25 2 9); [go_apart|go_char|].
  apply (fs_entry H _ [text_of Entry (bytes "c") SingleQuote] (spot 29 2 13)).
  { apply fn_body with (ab := bare Entry) (p1 := spot 25 2 9); [go_bare|]. apply fb_atom with (p0 := spot 26 2 10); [go_apart|]. apply at_scalar.
    apply (sc_quoted _ _ _ true (skipn 27 sample)); [reflexivity| |unfold moves; cbn; go_reads].
    cbn. apply (q_char true 99%N (39%N :: skipn 29 sample) [] (skipn 29 sample)).
    - unfold scalar_value; lia.
    - apply not_white; reflexivity.
    - discriminate.
    - discriminate.
    - apply q_close. intros (_ & r & Q). discriminate. }
  apply fs_end with (p0 := spot 29 2 13); [go_apart|go_char].
Qed.
Lemma sample_block : block false 0 (skipn 35 sample) (bytes "f" ++ [10%N]) (skipn 39 sample).
Proof.
  apply (bk_lines false 0 [] (skipn 35 sample) (skipn 36 sample) 0 1 (skipn 37 sample) (bytes "f") 1 (skipn 39 sample)).
  - left. reflexivity.
  - apply (hr_end (skipn 35 sample)). right. discriminate.
  - apply (ld_space 0 0 0 (skipn 37 sample)). apply (ld_end 1 0). apply not_white. reflexivity.
  - discriminate.
  - apply (tl_last false 1 (skipn 37 sample) (bytes "f") (skipn 38 sample) 0 0 (skipn 39 sample)).
    + change (SpecBlock.line ([102%N] ++ skipn 38 sample) ([102%N] ++ []) (skipn 38 sample)). rewrite <- (encode_ascii 102) by lia.
      apply SpecBlock.ln_char; [unfold scalar_value; lia|reflexivity|]. apply SpecBlock.ln_end. right. discriminate.
    + discriminate.
    + apply mg_end; [lia|]. apply not_white. reflexivity.
    + left. discriminate.
Qed.
Lemma sample_content : content H false false (spot 15 1 3) sample_first (spot 57 7 10) true.
Proof.
  apply cn_block with (ab := bare Root) (p1 := spot 15 1 3) (p0 := spot 16 2 0) (f := false); [go_bare|go_apart|right; cbn; lia|].
  apply (bb_map H None (bare Root) (spot 15 1 3) (spot 16 2 0) (text_of Key (bytes "a") Plain) (spot 18 2 2)); [go_apart|left; split; reflexivity|exact Logic.I| |].
  { exists (bare Key), (spot 16 2 0), (spot 16 2 0), (spot 17 2 1), (spot 17 2 1). split; [go_bare|]. split; [go_apart|]. split; [apply at_scalar; go_scalar true|].
    split; [go_apart|]. split; [reflexivity|]. split; [cbn; lia|]. split; [go_char|]. intros _. go_loose. }
  apply (bm_value H false 0 (spot 18 2 2) [OpenSeq named; text_of Entry (bytes "b") Plain; text_of Entry (bytes "c") SingleQuote; CloseSeq] (spot 30 2 14) false).
  { apply bv_leaf with (ab := named) (p1 := spot 21 2 5).
    - exists [Anchor (bytes "x")]. split; [|apply ga_anchor]. apply pr_cons with (p0 := spot 19 2 3) (p1 := spot 21 2 5); [go_apart|cbn; lia|go_name|apply pr_nil].
    - apply lb_seq with (p0 := spot 22 2 6) (p1 := spot 23 2 7); [go_apart|cbn; lia|go_char|exact sample_flow]. }
  apply (bp_key H 0 (spot 30 2 14) false (spot 31 3 0) (text_of Key (bytes "d") Plain) (spot 33 3 2)).
  { go_apart. } { right; cbn; lia. } { reflexivity. }
  { exists (bare Key), (spot 31 3 0), (spot 31 3 0), (spot 32 3 1), (spot 32 3 1). split; [go_bare|]. split; [go_apart|]. split; [apply at_scalar; go_scalar true|].
    split; [go_apart|]. split; [reflexivity|]. split; [cbn; lia|]. split; [go_char|]. intros _. go_loose. }
  apply (bm_value H false 0 (spot 33 3 2) [text_of Value (bytes "f" ++ [10%N]) Literal] (spot 39 5 0) true).
  { apply bv_leaf with (ab := bare Value) (p1 := spot 33 3 2); [go_bare|].
    apply (lb_block H (Some 0) (bare Value) false (spot 33 3 2) (spot 34 3 3) (skipn 35 sample) _ (spot 39 5 0));
      [go_apart|cbn; lia|reflexivity|discriminate|exact sample_block|exists 102%N; cbn; split; [auto|discriminate]|repeat constructor; discriminate|discriminate|unfold moves; cbn; go_reads|cbn; lia]. }
  apply (bp_key H 0 (spot 39 5 0) true (spot 39 5 0) (text_of Key (bytes "g") Plain) (spot 41 5 2)).
  { go_apart. } { left; reflexivity. } { reflexivity. }
  { exists (bare Key), (spot 39 5 0), (spot 39 5 0), (spot 40 5 1), (spot 40 5 1). split; [go_bare|]. split; [go_apart|]. split; [apply at_scalar; go_scalar true|].
    split; [go_apart|]. split; [reflexivity|]. split; [cbn; lia|]. split; [go_char|]. intros _. go_loose. }
  apply (bm_value H false 0 (spot 41 5 2) [OpenSeq (bare Value); Alias (bytes "x"); Text tagged (bytes "1") Plain; CloseSeq] (spot 57 7 10) false); [|apply bp_end].
  apply bv_zero with (p1 := spot 41 5 2) (p0 := spot 42 6 0) (p2 := spot 43 6 1); [go_bare|go_apart|cbn; lia|reflexivity|split; [go_char|go_loose]|].
  apply (zs_more H 0 (spot 43 6 1) [Alias (bytes "x")] (spot 46 6 4) false (spot 47 7 0) (spot 48 7 1)); [|go_apart|right; cbn; lia|reflexivity|split; [go_char|go_loose]|].
  { apply ze_node with (ab := bare Entry) (p1 := spot 43 6 1) (p0 := spot 44 6 2); [go_bare|go_apart|reflexivity|intros [(q & Q)|(q & Q)]; discriminate|].
    apply bb_leaf, lb_atom with (p0 := spot 44 6 2); [go_apart|cbn; lia|]. apply at_alias; [split; reflexivity|go_name]. }
  apply (zs_last H 0 (spot 48 7 1) [Text tagged (bytes "1") Plain] (spot 57 7 10) false (spot 58 8 0)); [|go_apart|cbn; intros _ (q & Q); discriminate].
  apply ze_node with (ab := tagged) (p1 := spot 55 7 8) (p0 := spot 56 7 9); [|go_apart|reflexivity|intros [(q & Q)|(q & Q)]; discriminate|].
  { exists [Tag (bytes "!e!") (bytes "int")]. split; [|apply ga_tag]. apply pr_cons with (p0 := spot 49 7 2) (p1 := spot 55 7 8); [go_apart|reflexivity| |apply pr_nil].
    exists (bytes "int"). split; [reflexivity|]. split; [repeat (apply spelled_lit; [unfold uri_literal, letter_or_digit; cbn; lia|]); apply spelled_nil|]. split; [eexists 32%N, _; split; [reflexivity|]; split; [lia|]; split; [intros [[X|[X|X]]|[X|[X _]]]; [lia|lia|lia|cbn in X; intuition discriminate|discriminate]|discriminate]|]. split; [left; exists [101%N]; split; [reflexivity|repeat constructor; unfold letter_or_digit; lia]|]. split; [cbn; right; right; left; reflexivity|unfold moves; cbn; go_reads]. }
  apply bb_leaf, lb_atom with (p0 := spot 56 7 9); [go_apart|cbn; lia|]. apply (at_scalar false 1 tagged). go_scalar true.
Qed.
Lemma sample_explicit : content (handles_of []) false true (spot 61 8 3) sample_second (spot 71 10 4) true.
Proof.
  apply cn_block with (ab := bare Root) (p1 := spot 61 8 3) (p0 := spot 63 9 1) (f := false); [go_bare|go_apart|right; cbn; lia|].
  apply bb_question with (p0 := spot 63 9 1) (p1 := spot 64 9 2); [go_apart|left; split; reflexivity|cbn; lia|split; [go_char|go_loose]|].
  apply (bq_value _ 1 (spot 64 9 2) [text_of Key (bytes "z") Plain] (spot 66 9 4) false (spot 68 10 1) (spot 69 10 2)).
  { apply bv_leaf with (ab := bare Key) (p1 := spot 64 9 2); [go_bare|].
    apply lb_atom with (p0 := spot 65 9 3); [go_apart|cbn; lia|]. apply at_scalar. go_scalar true. }
  { go_apart. } { right; cbn; lia. } { reflexivity. } { split; [go_char|go_loose]. }
  apply (bm_value _ true 1 (spot 69 10 2) [text_of Value (bytes "y") Plain] (spot 71 10 4) false); [|apply bp_end].
  apply bv_leaf with (ab := bare Value) (p1 := spot 69 10 2); [go_bare|].
  apply lb_atom with (p0 := spot 70 10 3); [go_apart|cbn; lia|]. apply at_scalar. go_scalar true.
Qed.
Lemma sample_directive : directive_at (spot 0 0 0) (TagPrefix (bytes "!e!") (bytes "x:")) (spot 11 0 11).
Proof.
  apply (dr_tag _ [32%N] (bytes "!e!") [32%N] (bytes "x:") (bytes "x:") 10%N (skipn 12 sample));
    [reflexivity|reflexivity|discriminate|repeat constructor| |discriminate|repeat constructor| |discriminate|reflexivity|cbn; auto|unfold moves; cbn; go_reads].
  - exists [101%N]. split; [reflexivity|]. apply Forall_cons; [unfold letter_or_digit; lia|apply Forall_nil].
  - repeat (apply spelled_lit; [unfold uri_literal, letter_or_digit; cbn; lia|]). apply spelled_nil.
Qed.
Ltac go_mark := split; [reflexivity|]; split; [reflexivity|]; split; [go_loose|reflexivity].
Lemma sample_is : stream sample sample_deeds.
Proof.
  apply (dn_explicit true true false (beginning sample) sample_directives (spot 11 0 11) (spot 12 1 0) (spot 15 1 3) sample_first (spot 57 7 10) true).
  { left. reflexivity. }
  { apply dl_cons with (p0 := spot 0 0 0) (p1 := spot 11 0 11); [go_apart|exact sample_directive|apply dl_nil]. }
  { split; [cbn; lia|]. cbn. repeat constructor; cbn; intuition discriminate. }
  { go_apart. } { go_mark. } { right. exact sample_content. }
  apply (de_explicit true (spot 57 7 10) (spot 58 8 0) (spot 61 8 3)); [go_apart|go_mark|].
  apply (dn_bare false true (spot 61 8 3) sample_second (spot 71 10 4) true); [exact sample_explicit|].
  apply de_implicit.
  apply (dn_explicit false false true (spot 71 10 4) [] (spot 71 10 4) (spot 72 11 0) (spot 75 11 3) [] (spot 75 11 3) true).
  { right. reflexivity. } { apply dl_nil. }
  { split; [cbn; lia|]. cbn. repeat constructor; cbn; intuition discriminate. }
  { go_apart. } { go_mark. } { left. repeat split. }
  apply de_implicit. apply dn_end. cbn. go_skips.
Qed.
