(** Block collections: the rounds of the scanner and the tokens they queue. *)
From Verif Require Export YamlFlow.
From Verif Require Import StreamFacts.
From Verif Require Import SpecYaml.
From Coq Require Import Lia ZifyBool ZifyN ZifyNat.
Open Scope nat_scope.

(** ** The stack of open block collections *)
(** A sequence in the column of its mapping remembers the line of its last dash. *)
Inductive level_kind := LMap | LSeq | LZero (ln : nat).
Definition level := (nat * level_kind)%type.
Definition is_map (k : level_kind) : bool := match k with LMap => true | _ => false end.
Definition is_zero (k : level_kind) : bool := match k with LZero _ => true | _ => false end.
Section Used.
Variable used : bool. (* there was a block collection in an earlier document *)
Definition below (L : list level) : nat := match L with (n, _) :: _ => n | [] => 0 end.
Definition cur (L : list level) : option nat := match L with (n, _) :: _ => Some n | [] => around used end.
Definition one_level (e : indent_entry) (k : level_kind) (M : list level) : Prop :=
  ie_indent e = below M /\ ie_map e = is_map k /\ ie_zero e = is_zero k /\ (forall ln, k = LZero ln -> ie_line e = ln).
Fixpoint stacked (l : list indent_entry) (L : list level) : Prop :=
  match l, L with
  | [], [] => True
  | e :: r, (_, k) :: M => one_level e k M /\ stacked r M
  | _, _ => False
  end.
Definition shaped (c : context) (L : list level) : Prop :=
  c_flow c = 0 /\ c_indent c = below L /\ stacked (c_indents c) L /\ c_started c = negb (is_empty L) || used.
Definition upper (n : nat) (ext : list level) : Prop := Forall (fun l => n < fst l) ext.

Lemma shaped_block c L : shaped c L -> is_block c = true.
Proof. intros (F & _). unfold is_block, is_flow. rewrite F. reflexivity. Qed.
Lemma shaped_flow c L : shaped c L -> is_flow c = false.
Proof. intros (F & _). unfold is_flow. rewrite F. reflexivity. Qed.
Lemma shaped_cur c L : shaped c L -> cur_indent c = cur L.
Proof. intros (_ & I & _ & S). unfold cur_indent. rewrite S, I. destruct L as [|[n k] L]; [|reflexivity]. cbn. destruct used; reflexivity. Qed.
Lemma shaped_indent c L : shaped c L -> indent_add (cur_indent c) 1 = indent_of (cur L).
Proof. intros S. rewrite (shaped_cur _ _ S). destruct L as [|[n k] L]; [|reflexivity]. cbn. destruct used; reflexivity. Qed.

Definition steady (L : list level) (l : nat) : Prop :=
  match L with (_, LZero ln) :: _ => l <= ln | _ => True end.
Lemma steady_calm c L l : shaped c L -> steady L l -> calm c l.
Proof.
  intros (_ & _ & S & _) T. unfold calm. destruct (c_indents c) as [|e r]; [trivial|]. destruct L as [|[n k] L]; [destruct S|].
  destruct S as [(_ & Em & Ez & El) _]. rewrite Em, Ez. destruct k as [| |ln]; cbn; try discriminate. intros _. rewrite (El ln eq_refl). exact T.
Qed.
Lemma shaped_firm c L p : shaped c L -> (L <> [] -> below L <= column p) -> steady L (line p) -> firm c p.
Proof.
  intros S B T. split; [|eapply steady_calm; eauto]. intros _. destruct S as (_ & -> & _). destruct L; [cbn; lia|]. apply B. discriminate.
Qed.
Lemma deeper_firm c L p : shaped c L -> deeper (cur L) (column p) -> steady L (line p) -> firm c p.
Proof. intros S D T. eapply shaped_firm; eauto. intros N. destruct L as [|[n k] L]; [congruence|]. cbn in *. lia. Qed.

Lemma pops L col : forall ext l, stacked l (ext ++ L) -> upper col ext -> (below L <= col) ->
  exists r, pop_indents l (below (ext ++ L)) (Some col) = (below L, r, List.length ext) /\ stacked r L.
Proof.
  induction ext as [|[n k] ext IH]; intros l S U B.
  - cbn [app List.length]. exists l. split; [|exact S].
    destruct l as [|e l]; cbn [pop_indents indent_gt]; destruct (Nat.ltb_spec col (below L)); try reflexivity; lia.
  - cbn [app] in S. destruct l as [|e l]; [destruct S|]. destruct S as [(E1 & _) S].
    pose proof (Forall_inv U) as Un. pose proof (Forall_inv_tail U) as U'. cbn [fst] in Un.
    destruct (IH l S U' B) as (r & E & SR). exists r. split; [|exact SR]. cbn [pop_indents indent_gt below app].
    destruct (Nat.ltb_spec col n); [|lia]. rewrite E1, E. reflexivity.
Qed.
Lemma unrolls c ext L st : shaped c (ext ++ L) -> L <> [] -> upper (scol st) ext -> below L <= scol st ->
  exists c', unrolled c st = (c', List.length ext) /\ shaped c' L.
Proof.
  intros SH N U B. pose proof (shaped_block _ _ SH) as BL. destruct SH as (F & I & S & ST).
  destruct (pops L (scol st) ext _ S U B) as (r & E & SR).
  exists (mkCxt (c_flow c) (below L) r (c_started c)). split.
  - unfold unrolled, indent_decrement. rewrite BL, I, E. reflexivity.
  - split; [exact F|]. split; [reflexivity|]. split; [exact SR|]. cbn [c_started]. rewrite ST. destruct L; [congruence|].
    destruct ext; reflexivity.
Qed.
Lemma begins_at c p : begins c p <-> at_is (text p) 0 c = true.
Proof.
  unfold begins, at_is. destruct (text p) as [|x r]; cbn [nth_error].
  - split; [intros (r & E); discriminate|discriminate].
  - split; [intros (r' & E); injection E as -> ->; apply N.eqb_refl|]. intros E. exists r. f_equal. apply N.eqb_eq, E.
Qed.

(** Closing what is open above a collection. *)
Lemma closes_to c ext L p : shaped c (ext ++ L) -> L <> [] -> upper (column p) ext -> below L <= column p ->
  steady L (line p) \/ begins 45 p -> exists c', sets c p c' (List.length ext) /\ shaped c' L.
Proof.
  intros SH N U B T. destruct (unrolls c ext L (snd p) SH N U B) as (c' & E & S). exists c'. split; [|exact S].
  unfold sets. cbv zeta. rewrite E. cbn [fst snd].
  assert (D : dropped c' (snd p) (text p) = (c', 0)).
  { destruct T as [T|T].
    - pose proof (steady_calm _ _ _ S T) as C. unfold calm in C. unfold dropped. destruct (c_indents c') as [|e r]; [reflexivity|].
      destruct (ie_zero e && negb (ie_map e)) eqn:Z.
      + specialize (C eq_refl). unfold line in C. assert (Nat.ltb (ie_line e) (slines (snd p)) = false) as -> by lia. reflexivity.
      + rewrite <- (andb_assoc _ (ie_zero e)), Z, andb_false_r. reflexivity.
    - apply begins_at in T. unfold dropped. rewrite T. destruct (c_indents c'); [reflexivity|]. rewrite andb_false_r. reflexivity. }
  rewrite D. cbn [fst snd]. split; [reflexivity|lia].
Qed.
Lemma closes_zero c ext n ln M p : shaped c (ext ++ (n, LZero ln) :: (n, LMap) :: M) -> upper n ext -> column p = n ->
  ln < line p -> ~ begins 45 p -> exists c', sets c p c' (List.length ext + 1) /\ shaped c' ((n, LMap) :: M).
Proof.
  intros SH U C LL NB. destruct (unrolls c ext _ (snd p) SH ltac:(discriminate)) as (c' & E & S).
  { unfold column in C. rewrite C. exact U. } { cbn [below]. unfold column in C. lia. }
  destruct S as (F & I & S & ST). destruct (c_indents c') as [|e r] eqn:CI; [destruct S|]. destruct S as [(E1 & E2 & E3 & E4) S].
  exists (mkCxt (c_flow c') (ie_indent e) r (c_started c')). split.
  - unfold sets. cbv zeta. rewrite E. cbn [fst snd].
    assert (D : dropped c' (snd p) (text p) = (mkCxt (c_flow c') (ie_indent e) r (c_started c'), 1)).
    { unfold dropped, pop_indent. rewrite CI, E2, E3, (E4 ln eq_refl). unfold line in LL. apply Nat.ltb_lt in LL. rewrite LL. cbn [is_map is_zero negb andb].
      destruct (at_is (text p) 0 45) eqn:X; [|reflexivity]. apply begins_at in X. contradiction. }
    rewrite D. split; reflexivity.
  - split; [exact F|]. split; [cbn [c_indent]; rewrite E1; reflexivity|]. split; [exact S|]. exact ST.
Qed.

(** Opening. *)
Lemma roll_deeper c L st (map : bool) : shaped c L -> deeper (cur L) (scol st) ->
  snd (roll c st map) = [mkEntry (Tok (if map then TBlockMappingStart else TBlockSequenceStart)) (sread st)] /\
  shaped (fst (roll c st map)) ((scol st, if map then LMap else LSeq) :: L).
Proof.
  intros SH D. pose proof (shaped_block _ _ SH) as B. pose proof (shaped_cur _ _ SH) as C. destruct SH as (F & I & S & ST).
  unfold roll. rewrite B, C.
  assert (indent_ltb (cur L) (scol st) = true) as ->.
  { destruct L as [|[n k] L]; cbn in D |- *; [|apply Nat.ltb_lt, D]. unfold around in *. destruct used; [apply Nat.ltb_lt, D|reflexivity]. }
  cbn [fst snd]. split; [reflexivity|]. split; [exact F|]. split; [reflexivity|]. split; [|reflexivity].
  cbn [indent_increment c_indents stacked]. split; [|exact S]. split; [exact I|]. destruct map; repeat split; discriminate.
Qed.
Lemma roll_same_map c n L st : shaped c ((n, LMap) :: L) -> scol st = n -> roll c st true = (c, []).
Proof.
  intros SH E. unfold roll. rewrite (shaped_block _ _ SH), (shaped_cur _ _ SH). cbn [cur indent_ltb negb andb].
  destruct (Nat.ltb_spec n (scol st)); [lia|]. reflexivity.
Qed.
Lemma roll_same_seq c n k L st : shaped c ((n, k) :: L) -> is_map k = false -> scol st = n -> roll c st false = (c, []).
Proof.
  intros SH K E. unfold roll. rewrite (shaped_block _ _ SH), (shaped_cur _ _ SH). cbn [cur indent_ltb indent_eqb negb andb].
  destruct (Nat.ltb_spec n (scol st)); [lia|]. rewrite E, Nat.eqb_refl. destruct SH as (_ & _ & S & _).
  destruct (c_indents c) as [|e r]; [destruct S|]. destruct S as [(_ & -> & _) _]. rewrite K. reflexivity.
Qed.
Lemma roll_zero c n L st : shaped c ((n, LMap) :: L) -> scol st = n ->
  snd (roll c st false) = [mkEntry (Tok TBlockSequenceStart) (sread st)] /\
  shaped (fst (roll c st false)) ((n, LZero (slines st)) :: (n, LMap) :: L).
Proof.
  intros SH E. unfold roll. rewrite (shaped_block _ _ SH), (shaped_cur _ _ SH). cbn [cur indent_ltb indent_eqb negb andb].
  destruct (Nat.ltb_spec n (scol st)); [lia|]. rewrite E, Nat.eqb_refl. destruct SH as (F & I & S & _).
  destruct (c_indents c) as [|e r] eqn:CI; [destruct S|]. assert (X : ie_map e = true) by (destruct S as [(_ & -> & _) _]; reflexivity). rewrite X. cbn [fst snd].
  split; [reflexivity|]. split; [exact F|]. split; [reflexivity|]. split; [|reflexivity].
  cbn [indent_increment c_indents]. rewrite CI. split; [|exact S]. split; [exact I|]. repeat split. intros ln L0. injection L0 as <-. reflexivity.
Qed.
Lemma refresh_seq c n L st : shaped c ((n, LSeq) :: L) -> shaped (refresh_line c st) ((n, LSeq) :: L).
Proof.
  intros (F & I & S & ST). unfold refresh_line. destruct (c_indents c) as [|e r] eqn:CI; [destruct S|].
  destruct (_ && _); [|split; [exact F|]; split; [exact I|]; split; [rewrite CI; exact S|exact ST]].
  split; [exact F|]. split; [exact I|]. split; [|exact ST]. cbn [c_indents]. destruct S as [(E1 & E2 & E3 & E4) S]. split; [|exact S].
  split; [exact E1|]. split; [exact E2|]. split; [exact E3|]. discriminate.
Qed.
Lemma refresh_zero c n ln L st : shaped c ((n, LZero ln) :: (n, LMap) :: L) -> scol st = n -> ln <= slines st ->
  shaped (refresh_line c st) ((n, LZero (slines st)) :: (n, LMap) :: L).
Proof.
  intros (F & I & S & ST) C LE. unfold refresh_line. destruct (c_indents c) as [|e r] eqn:CI; [destruct S|].
  destruct S as [(E1 & E2 & E3 & E4) S]. cbn [below] in E1. rewrite E1, C, Nat.eqb_refl, (E4 ln eq_refl). cbn [andb].
  destruct (Nat.ltb_spec ln (slines st)).
  - split; [exact F|]. split; [exact I|]. split; [|exact ST]. cbn [c_indents]. split; [|exact S].
    split; [cbn; lia|]. split; [exact E2|]. split; [exact E3|]. intros l X. injection X as <-. reflexivity.
  - assert (ln = slines st) as -> by lia. split; [exact F|]. split; [exact I|]. split; [rewrite CI|exact ST]. split; [|exact S].
    split; [exact E1|]. split; [exact E2|]. split; [exact E3|]. exact E4.
Qed.

(** ** Block collections *)
Scheme block_body_mut := Minimality for block_body Sort Prop
with block_seq_mut := Minimality for block_seq Sort Prop
with block_entry_mut := Minimality for block_entry Sort Prop
with block_map_mut := Minimality for block_map Sort Prop
with block_question_mut := Minimality for block_question Sort Prop
with block_pairs_mut := Minimality for block_pairs Sort Prop
with block_value_mut := Minimality for block_value Sort Prop
with zero_seq_mut := Minimality for zero_seq Sort Prop
with zero_entry_mut := Minimality for zero_entry Sort Prop.
Combined Scheme block_ind from block_body_mut, block_seq_mut, block_entry_mut, block_map_mut, block_question_mut, block_pairs_mut, block_value_mut, zero_seq_mut, zero_entry_mut.

Definition blockends (n : nat) : list maybe_token := repeat (Tok TBlockEnd) n.
Definition entry_stop : list marker := [MBlockEntry; MBlockEnd].
Definition pair_stop : list marker := [MKey; MValue; MBlockEnd].
Lemma blockends_app a b : blockends (a + b) = blockends a ++ blockends b.
Proof. apply repeat_app. Qed.
Lemma ahead_app ts rest rest' m : ts <> [] -> ahead (ts ++ rest) = Some m -> ahead (ts ++ rest') = Some m.
Proof. destruct ts; [congruence|]. intros _. exact (fun x => x). Qed.

Section Block.
  Variable o : flags.
  Hypothesis (NE : extendable o = false) (NL : lazy_mode o = false).
  Variable handles : str -> Prop.
  Variable known : str -> Prop.
  Hypothesis HK : forall h, handles h -> known h.

  (** What is left open behind the value of a mapping in column [n]. *)
  Definition over (n : nat) (ext : list level) (p : place) (f : bool) : Prop :=
    upper n ext \/ exists ext1 ln, ext = ext1 ++ [(n, LZero ln)] /\ upper n ext1 /\ ln <= line p /\ (f = true -> ln < line p) /\
      forall p0, apart p p0 -> column p0 = n -> begins 45 p0 -> n = 0 /\ document_marker (text p0).
  Definition goes (p p' : place) (f : bool) : Prop := moves p p' /\ (f = true -> line p < line p').
  Lemma goes_from p p1 p' f : moves p p1 -> goes p1 p' f -> goes p p' f.
  Proof. intros M [M' L]. split; [eauto using moves_trans|]. intros E. specialize (L E). pose proof (moves_order _ _ M). lia. Qed.

  Definition B_leaf (cu : option nat) (ab : about) (p : place) (e : list deed) (p' : place) (f : bool) : Prop :=
    all_ascii (text p) -> goes p p' f /\ forall L ska key c, cur L = cu -> shaped c L -> easy key ->
      (forall p0, apart p p0 -> steady L (line p0) /\ (begins 91 p0 \/ begins 123 p0 -> steady L (line p'))) ->
      exists es ska' key', run o (mkCfg p ska key c) es (mkCfg p' ska' key' c) /\ easy key' /\ (f = true -> ska' = true /\ key' = None) /\
        within (offset p) (offset p') es /\
        forall pre rest, dressed known ab pre -> starting true (pre ++ toks es ++ rest) /\
          exists evs, said evs e /\ t_node known true (a_kind ab) (pre ++ toks es ++ rest) evs rest.
  Definition B_body (cu : option nat) (ab : about) (p : place) (e : list deed) (p' : place) (f : bool) : Prop :=
    all_ascii (text p) -> goes p p' f /\ forall L ska key c, cur L = cu -> shaped c L -> easy key ->
      (plainly ab -> ska = true \/ forall p0, apart p p0 -> line p < line p0) ->
      (forall p0, apart p p0 -> steady L (line p0) /\ (begins 91 p0 \/ begins 123 p0 -> steady L (line p'))) ->
      exists es ska' key' c' ext, run o (mkCfg p ska key c) es (mkCfg p' ska' key' c') /\ easy key' /\ (f = true -> ska' = true /\ key' = None) /\
        shaped c' (ext ++ L) /\ Forall (fun l => deeper cu (fst l)) ext /\
        within (offset p) (offset p') es /\
        forall pre rest, dressed known ab pre -> starting true (pre ++ toks es ++ blockends (List.length ext) ++ rest) /\
          exists evs, said evs e /\ t_node known true (a_kind ab) (pre ++ toks es ++ blockends (List.length ext) ++ rest) evs rest.
  Definition B_seq (n : nat) (p : place) (e : list deed) (p' : place) (f : bool) : Prop :=
    all_ascii (text p) -> goes p p' f /\ forall L key c, shaped c ((n, LSeq) :: L) -> easy key ->
      exists es ska' key' c' ext, run o (mkCfg p true key c) es (mkCfg p' ska' key' c') /\ easy key' /\ (f = true -> ska' = true /\ key' = None) /\
        shaped c' (ext ++ (n, LSeq) :: L) /\ upper n ext /\ within (offset p) (offset p') es /\
        forall rest, exists evs, said evs e /\
          t_block_entries known (Tok TBlockEntry :: toks es ++ blockends (List.length ext + 1) ++ rest) evs rest.
  Definition B_entry (n : nat) (p : place) (e : list deed) (p' : place) (f : bool) : Prop :=
    all_ascii (text p) -> goes p p' f /\ forall L key c, shaped c ((n, LSeq) :: L) -> easy key ->
      exists es ska' key' c' ext, run o (mkCfg p true key c) es (mkCfg p' ska' key' c') /\ easy key' /\ (f = true -> ska' = true /\ key' = None) /\
        shaped c' (ext ++ (n, LSeq) :: L) /\ upper n ext /\ within (offset p) (offset p') es /\
        forall rest, ahead_in rest entry_stop -> exists evs, said evs e /\
          t_slot known entry_stop true Entry (toks es ++ blockends (List.length ext) ++ rest) evs rest.
  Definition B_map (ex : bool) (n : nat) (p : place) (e : list deed) (p' : place) (f : bool) : Prop :=
    all_ascii (text p) -> goes p p' f /\ forall L (ska : bool) c, shaped c ((n, LMap) :: L) -> (ex = true -> ska = true) ->
      exists es ska' key' c' ext, run o (mkCfg p ska None c) es (mkCfg p' ska' key' c') /\ easy key' /\ (f = true -> ska' = true /\ key' = None) /\
        shaped c' (ext ++ (n, LMap) :: L) /\ over n ext p' f /\ within (offset p) (offset p') es /\
        forall rest, exists evs, said evs e /\ forall kts kevs,
          t_slot known pair_stop true Key (kts ++ Tok TValue :: toks es ++ blockends (List.length ext + 1) ++ rest) kevs
            (Tok TValue :: toks es ++ blockends (List.length ext + 1) ++ rest) ->
          t_block_pairs known (Tok TKey :: kts ++ Tok TValue :: toks es ++ blockends (List.length ext + 1) ++ rest)
            (kevs ++ evs) rest.
  Definition B_question (n : nat) (p : place) (e : list deed) (p' : place) (f : bool) : Prop :=
    all_ascii (text p) -> goes p p' f /\ forall L c, shaped c ((n, LMap) :: L) ->
      exists es ska' key' c' ext, run o (mkCfg p true None c) es (mkCfg p' ska' key' c') /\ easy key' /\ (f = true -> ska' = true /\ key' = None) /\
        shaped c' (ext ++ (n, LMap) :: L) /\ over n ext p' f /\ within (offset p) (offset p') es /\
        forall rest, exists evs, said evs e /\
          t_block_pairs known (Tok TKey :: toks es ++ blockends (List.length ext + 1) ++ rest) evs rest.
  Definition B_pairs (n : nat) (p : place) (f0 : bool) (e : list deed) (p' : place) (f : bool) : Prop :=
    all_ascii (text p) -> (moves p p' /\ (f = true -> f0 = true \/ line p < line p')) /\ forall L ext0 ska key c,
      shaped c (ext0 ++ (n, LMap) :: L) -> over n ext0 p f0 -> easy key -> old p key -> (f0 = true -> ska = true /\ key = None) ->
      exists es ska' key' c' ext, run o (mkCfg p ska key c) es (mkCfg p' ska' key' c') /\ easy key' /\ (f = true -> ska' = true /\ key' = None) /\
        shaped c' (ext ++ (n, LMap) :: L) /\ over n ext p' f /\ within (offset p) (offset p') es /\
        forall rest, exists ts evs, toks es ++ blockends (List.length ext + 1) ++ rest = blockends (List.length ext0) ++ ts /\
          ahead_in ts [MKey; MBlockEnd] /\ said evs e /\ t_block_pairs known ts evs rest.
  Definition B_value (k : node_kind) (ex : bool) (n : nat) (p : place) (e : list deed) (p' : place) (f : bool) : Prop :=
    all_ascii (text p) -> goes p p' f /\ forall L (ska : bool) key c, shaped c ((n, LMap) :: L) -> easy key -> (ex = true -> ska = true) ->
      exists es ska' key' c' ext, run o (mkCfg p ska key c) es (mkCfg p' ska' key' c') /\ easy key' /\ (f = true -> ska' = true /\ key' = None) /\
        shaped c' (ext ++ (n, LMap) :: L) /\ over n ext p' f /\ within (offset p) (offset p') es /\
        forall rest, ahead_in rest pair_stop -> exists evs, said evs e /\
          t_slot known pair_stop true k (toks es ++ blockends (List.length ext) ++ rest) evs rest.
  Definition B_zero (n : nat) (p : place) (e : list deed) (p' : place) (f : bool) : Prop :=
    all_ascii (text p) -> n < column p -> goes p p' f /\ (forall p0, apart p' p0 -> column p0 = n -> begins 45 p0 -> n = 0 /\ document_marker (text p0)) /\
      forall L key c, shaped c ((n, LZero (line p)) :: (n, LMap) :: L) -> easy key ->
      exists es ska' key' c' ext ln, run o (mkCfg p true key c) es (mkCfg p' ska' key' c') /\ easy key' /\ (f = true -> ska' = true /\ key' = None) /\
        shaped c' (ext ++ (n, LZero ln) :: (n, LMap) :: L) /\ upper n ext /\ (ln <= line p' /\ (f = true -> ln < line p')) /\ within (offset p) (offset p') es /\
        forall rest, exists evs, said evs e /\
          t_block_entries known (Tok TBlockEntry :: toks es ++ blockends (List.length ext + 1) ++ rest) evs rest.
  Definition B_zentry (n : nat) (p : place) (e : list deed) (p' : place) (f : bool) : Prop :=
    all_ascii (text p) -> n < column p -> goes p p' f /\ forall L key c, shaped c ((n, LZero (line p)) :: (n, LMap) :: L) -> easy key ->
      exists es ska' key' c' ext, run o (mkCfg p true key c) es (mkCfg p' ska' key' c') /\ easy key' /\ (f = true -> ska' = true /\ key' = None) /\
        shaped c' (ext ++ (n, LZero (line p)) :: (n, LMap) :: L) /\ upper n ext /\ within (offset p) (offset p') es /\
        forall rest, ahead_in rest entry_stop -> exists evs, said evs e /\
          t_slot known entry_stop true Entry (toks es ++ blockends (List.length ext) ++ rest) evs rest.

  Lemma deeper_bland c L p : shaped c L -> deeper (cur L) (column p) -> bland c p.
  Proof.
    intros SH D. unfold bland. rewrite (shaped_cur _ _ SH). destruct (cur L) as [n|]; [|apply andb_false_r]. cbn in D |- *. unfold column in D.
    assert (Nat.eqb n (scol (snd p)) = false) as -> by (apply Nat.eqb_neq; lia). apply andb_false_r.
  Qed.
  Lemma prop_list_from (fits : place -> Prop) q p ms p' : moves q p -> prop_list handles fits p ms p' -> prop_list handles (fun r => fits r /\ moves q r) p ms p'.
  Proof.
    intros M PL. revert M. induction PL as [p|p p0 m p1 ms p' AP FT PA PL IH]; intros M; [apply pr_nil|].
    pose proof (moves_trans _ _ _ M (apart_moves _ _ AP)) as M0. eapply pr_cons; [exact AP|split; [exact FT|exact M0]|exact PA|]. apply IH.
    eapply moves_trans; [exact M0|]. destruct m; cbn [prop_at] in PA; [apply PA|destruct PA as (t & PA); apply PA].
  Qed.
  (** The properties of a node in a block. *)
  Lemma props_block fits k p ab p1 L c ska key : props handles fits k p ab p1 -> all_ascii (text p) -> shaped c L ->
    (forall q, fits q -> moves p q -> line q <= line p1 -> deeper (cur L) (column q) /\ steady L (line q)) -> easy key ->
    exists es ska' key', run o (mkCfg p ska key c) es (mkCfg p1 ska' key' c) /\ easy key' /\ within (offset p) (offset p1) es /\
      dressed known ab (toks es) /\ a_kind ab = k /\ (plainly ab -> ska' = ska /\ p1 = p).
  Proof.
    intros (ms & PL & G) A SH FI K. apply (prop_list_from fits p) in PL; [|apply reads_here].
    destruct (props_run o NE NL handles known HK _ k p ab p1 c ska key (ex_intro _ ms (conj PL G)) A) as (es & ska' & key' & R & K' & W & D & EK & PA & _); [|exact K|eauto 10].
    intros q [F M] LE. destruct (FI q F M LE) as [D S]. split; [eapply deeper_firm; eauto|eapply deeper_bland; eauto].
  Qed.

  Lemma leaf_all cu ab p e p' f : leaf_body handles cu ab p e p' f -> B_leaf cu ab p e p' f.
  Proof.
    destruct 1 as [p p0 d p' AP D AT|p p0 p1 e p' AP D CH FS|p p0 p1 e p' AP D CH FS|fold p p0 b v p' AP D E NH BK NC LF NLL M LN]; intros A;
      pose proof (apart_moves _ _ AP) as M0; pose proof (moves_ascii _ _ M0 A) as A0; pose proof (moves_order _ _ M0) as [B0 B0'].
    - assert (M1 : moves p0 p' /\ offset p0 < offset p').
      { destruct AT as [v style q SC|a q PL NN]; [eapply scalar_moves; eauto|]. destruct (word_name o NE NL true p0 a q (mkCxt 0 0 [] false) A0 NN) as (_ & M & O & _). auto. }
      destruct M1 as [M1 O1].
      split; [split; [eauto using moves_trans|discriminate]|]. intros L ska key c CU SH K ST. destruct (ST p0 AP) as [S0 _].
      subst cu. assert (FI : firm c p0) by (eapply deeper_firm; eauto).
      rewrite <- (shaped_flow _ _ SH), <- (shaped_indent _ _ SH) in AT.
      destruct (atom_word o NE NL known _ ab p0 d p' c A0 AT (fun _ => eq_refl)) as (t & W & T).
      pose proof (word_step o NE p p0 t p' ska key c c 0 A AP K (firm_sets _ _ FI) W) as TU.
      eexists _, _, _. split; [apply run_one; exact TU|]. split.
      { unfold saved. destruct (_ || _); [|apply easy_expired, K]. pose proof (deeper_bland _ _ _ SH D) as BL. unfold bland in BL. rewrite BL. reflexivity. }
      split; [discriminate|]. split; [repeat constructor; cbn; lia|]. intros pre rest DR. destruct (T pre DR) as (ev & SHW & TN). destruct (TN true rest) as [ST1 TN1].
      change (toks (_ ++ [_])) with [Tok t]. cbn [app]. split; [exact ST1|]. exists [ev]. split; [unfold said; cbn [map]; rewrite SHW; reflexivity|exact TN1].
    - destruct (char_moves _ _ _ A0 CH ltac:(lia) ltac:(lia) ltac:(lia)) as (M1 & EO & EL). pose proof (moves_ascii _ _ M1 A0) as A1.
      destruct (proj1 (proj2 (proj2 (flow_all o NE NL handles known HK))) _ _ _ _ FS A1) as [M2 IH']. pose proof (moves_order _ _ M2) as [B2 B2'].
      split; [split; [eauto using moves_trans|discriminate]|]. intros L ska key c CU SH K ST. destruct (ST p0 AP) as [S0 S1].
      specialize (S1 (or_introl (ex_intro _ _ (proj1 CH)))). subst cu.
      assert (FI : firm c p0) by (eapply deeper_firm; eauto).
      destruct (YamlFlow.flow_open o NE NL false p p0 p1 ska key c c 0 A AP K (firm_sets _ _ FI) CH) as (key' & K' & _ & _ & _ & _ & _ & NEXT).
      destruct (IH' true key' c (fun _ => eq_refl) (steady_calm _ _ _ SH S1) K') as (es & R & W & T).
      destruct (NEXT _ _ R M2 W) as (fs & R' & W' & T').
      exists fs, false, None. split; [exact R'|]. split; [exact Logic.I|]. split; [discriminate|]. split; [eapply within_wide; [exact W'|lia|cbn; lia]|].
      intros pre rest DR. rewrite T'. cbn [repeat app]. split; [eapply dressed_starting; [exact DR|]; exists MFlowSequenceStart; cbn; auto 10|].
      destruct (T rest) as [_ (evs & SA & (TE & _))].
      destruct (dress_seq known ab pre evs e DR SA) as (ev & SA' & TN & _). exists (ev :: evs). split; [exact SA'|apply TN, TE].
    - destruct (char_moves _ _ _ A0 CH ltac:(lia) ltac:(lia) ltac:(lia)) as (M1 & EO & EL). pose proof (moves_ascii _ _ M1 A0) as A1.
      destruct (proj1 (proj2 (proj2 (proj2 (flow_all o NE NL handles known HK)))) _ _ _ _ FS A1) as [M2 IH']. pose proof (moves_order _ _ M2) as [B2 B2'].
      split; [split; [eauto using moves_trans|discriminate]|]. intros L ska key c CU SH K ST. destruct (ST p0 AP) as [S0 S1].
      specialize (S1 (or_intror (ex_intro _ _ (proj1 CH)))). subst cu.
      assert (FI : firm c p0) by (eapply deeper_firm; eauto).
      destruct (YamlFlow.flow_open o NE NL true p p0 p1 ska key c c 0 A AP K (firm_sets _ _ FI) CH) as (key' & K' & _ & _ & _ & _ & _ & NEXT).
      destruct (IH' true key' c (fun _ => eq_refl) (steady_calm _ _ _ SH S1) K') as (es & R & W & T).
      destruct (NEXT _ _ R M2 W) as (fs & R' & W' & T').
      exists fs, false, None. split; [exact R'|]. split; [exact Logic.I|]. split; [discriminate|]. split; [eapply within_wide; [exact W'|lia|cbn; lia]|].
      intros pre rest DR. rewrite T'. cbn [repeat app]. split; [eapply dressed_starting; [exact DR|]; exists MFlowMappingStart; cbn; auto 10|].
      destruct (T rest) as [_ (evs & SA & (TE & _))].
      destruct (dress_map known ab pre evs e DR SA) as (ev & SA' & TN & _). exists (ev :: evs). split; [exact SA'|apply TN, TE].
    - pose proof (moves_order _ _ M) as [B1 _].
      split; [split; [eauto using moves_trans|intros _; lia]|]. intros L ska key c CU SH K ST. destruct (ST p0 AP) as [S0 _]. subst cu.
      assert (FI : firm c p0) by (eapply deeper_firm; eauto).
      assert (EI : parent_of (cur L) = indent_usize (cur_indent c)) by (rewrite (shaped_cur _ _ SH); destruct L as [|[n k] L]; [cbn; destruct used|]; reflexivity).
      rewrite EI in BK.
      destruct (dispatch_block o NE NL fold p0 b v p' c A0 (shaped_block _ _ SH) E NH BK NC LF NLL M) as (w & EW & DI).
      assert (TU : turn o (mkCfg p ska key c) (ends 0 (offset p0) ++ [mkEntry (Tok (TScalar w (if fold then Folded else Literal))) (offset p')]) (mkCfg p' true None c)).
      { eapply token_step; eauto using easy_timely, firm_sets; [rewrite E; discriminate|]. intros n q. rewrite DI by (apply easy_expired, K). reflexivity. }
      eexists _, true, None. split; [apply run_one; exact TU|]. split; [exact Logic.I|]. split; [intros _; split; reflexivity|]. split; [repeat constructor; cbn; lia|].
      intros pre rest DR. destruct (dress_scalar known ab pre w (if fold then Folded else Literal) DR) as (ev & SHW & TN). rewrite EW in SHW.
      change (toks (_ ++ [_])) with [Tok (TScalar w (if fold then Folded else Literal))]. cbn [app].
      split; [eapply dressed_starting; [exact DR|]; exists MScalar; cbn; auto 10|]. exists [ev]. split; [unfold said; cbn [map]; rewrite SHW; reflexivity|apply TN].
  Qed.

  Lemma dash_moves p p1 : all_ascii (text p) -> dash p p1 ->
    moves p p1 /\ offset p1 = S (offset p) /\ line p1 = line p /\ column p1 = S (column p).
  Proof.
    intros A [CH _]. destruct (char_moves _ _ _ A CH ltac:(lia) ltac:(lia) ltac:(lia)) as (M & E1 & E2). repeat split; auto.
    destruct CH as [_ CH]. unfold column. rewrite CH. reflexivity.
  Qed.
  Lemma dash_begins p p1 : dash p p1 -> begins 45 p.
  Proof. intros [[E _] _]. exists (text p1). exact E. Qed.
  Lemma starter_entry ts : starting true ts -> ahead_not ts entry_stop.
  Proof. intros S. eapply starting_not; [exact S|]. cbn. intuition congruence. Qed.
  Lemma starter_pair ts : starting true ts -> ahead_not ts pair_stop.
  Proof. intros S. eapply starting_not; [exact S|]. cbn. intuition congruence. Qed.
  Lemma over_deeper cu n ext p f : deeper cu n -> over n ext p f -> Forall (fun l => deeper cu (fst l)) ext.
  Proof.
    intros D O. assert (G : Forall (fun l => n <= fst l) ext).
    { destruct O as [U|(e1 & ln & -> & U & _)]; [|apply Forall_app; split; [|repeat constructor]];
        (eapply Forall_impl; [|exact U]; cbn; intros; lia). }
    eapply Forall_impl; [|exact G]. cbn. intros [m k]. cbn. destruct cu; cbn in *; [lia|trivial].
  Qed.
  Lemma keyed_slot kt kev rest : YamlFlow.keyed known kt kev -> t_slot known pair_stop true Key (kt ++ rest) [kev] rest.
  Proof. intros KD. destruct (KD true rest) as [S T]. apply ts_node; [apply starter_pair, S|exact T]. Qed.
  Lemma nothing_entry ab pre rest : dressed known ab pre -> ahead_in rest entry_stop ->
    exists evs, said evs [nothing ab] /\ t_slot known entry_stop true (a_kind ab) (pre ++ rest) evs rest.
  Proof. intros D AH. eapply slot_nothing; eauto. cbn. intuition congruence. Qed.
  Lemma nothing_value ab pre rest : dressed known ab pre -> ahead_in rest pair_stop ->
    exists evs, said evs [nothing ab] /\ t_slot known pair_stop true (a_kind ab) (pre ++ rest) evs rest.
  Proof. intros D AH. eapply slot_nothing; eauto. cbn. intuition congruence. Qed.
  Lemma skip_line (f ska : bool) (key : option key_save) p p' : (f = true -> ska = true /\ key = None) -> new_line f p p' -> ska = true \/ line p < line p'.
  Proof. intros S [F|L]; [left; apply S, F|auto]. Qed.
  Lemma skip_key (f ska : bool) (key : option key_save) p p' : (f = true -> ska = true /\ key = None) -> new_line f p p' -> old p key ->
    key_possible_now (expired (snd p') key) = false.
  Proof. intros S [F|L] OL; [destruct (S F) as [_ ->]; reflexivity|eapply old_expired; eauto]. Qed.
  Lemma pairs_over (f f0 : bool) p p1 p' : goes p p1 f0 -> (moves p1 p' /\ (f = true -> f0 = true \/ line p1 < line p')) -> goes p p' f.
  Proof.
    intros [M1 L1] [M2 L2]. split; [eauto using moves_trans|]. intros F. pose proof (moves_order _ _ M1). pose proof (moves_order _ _ M2).
    destruct (L2 F) as [X|X]; [specialize (L1 X)|]; lia.
  Qed.
  (** Back to the mapping for its next key. *)
  Lemma closes_over c ext n L p p1 f : shaped c (ext ++ (n, LMap) :: L) -> over n ext p f -> apart p p1 -> new_line f p p1 -> column p1 = n ->
    (begins 45 p1 -> column p1 = 0 -> ~ document_marker (text p1)) ->
    exists c2, sets c p1 c2 (List.length ext) /\ shaped c2 ((n, LMap) :: L).
  Proof.
    intros SH OV AP LL EC ND. pose proof (moves_order _ _ (apart_moves _ _ AP)) as [_ B]. destruct OV as [U|(e1 & ln & -> & U & LN & LN' & NB)].
    - apply closes_to; [exact SH|discriminate|rewrite EC; exact U|cbn; lia|left; exact Logic.I].
    - rewrite <- app_assoc in SH. cbn [app] in SH. rewrite app_length. cbn [List.length].
      apply (closes_zero _ _ _ _ _ _ SH U EC); [destruct LL as [LL|LL]; [specialize (LN' LL)|]; lia|].
      intros BG. destruct (NB _ AP EC BG) as [N0 DM]. subst n. exact (ND BG N0 DM).
  Qed.
  Lemma char_no_dash x p p1 : char x p p1 -> x <> 45%N -> begins 45 p -> column p = 0 -> ~ document_marker (text p).
  Proof. intros [E _] N (r & E') _ _. rewrite E in E'. congruence. Qed.

  Lemma key_no_marker i p d p1 : key handles false i p d p1 -> begins 45 p -> column p = 0 -> ~ document_marker (text p).
  Proof.
    intros (ab & p2 & p3 & p4 & p5 & (ms & PL & _) & AP & AT & _) (r & E) C.
    assert (H : forall q, apart p q -> q = p).
    { intros q AQ. symmetry. apply (apart_det p); [|exact AQ]. split; [rewrite E; apply sk_end; reflexivity|apply reads_here]. }
    destruct PL as [p|p p0 m q ms p' AP0 _ PA _].
    - rewrite (H _ AP) in AT. destruct AT as [v style q SC|a q _ (X & _)]; [|rewrite E in X; discriminate].
      destruct SC as [single s v q X _ _|v q _ _ N _ _]; [rewrite E in X; destruct single; discriminate|]. intros D. apply N. auto.
    - rewrite (H _ AP0) in PA. exfalso. destruct m as [a|h s]; cbn [prop_at] in PA.
      + destruct PA as (X & _). rewrite E in X. discriminate.
      + destruct PA as (t & X & _ & _ & [(nm & -> & _)|(-> & _)] & _); rewrite E in X; discriminate.
  Qed.

  Lemma block_all :
    (forall cu ab p e p' f, block_body handles cu ab p e p' f -> B_body cu ab p e p' f) /\
    (forall n p e p' f, block_seq handles n p e p' f -> B_seq n p e p' f) /\
    (forall n p e p' f, block_entry handles n p e p' f -> B_entry n p e p' f) /\
    (forall ex n p e p' f, block_map handles ex n p e p' f -> B_map ex n p e p' f) /\
    (forall n p e p' f, block_question handles n p e p' f -> B_question n p e p' f) /\
    (forall n p f0 e p' f, block_pairs handles n p f0 e p' f -> B_pairs n p f0 e p' f) /\
    (forall k ex n p e p' f, block_value handles k ex n p e p' f -> B_value k ex n p e p' f) /\
    (forall n p e p' f, zero_seq handles n p e p' f -> B_zero n p e p' f) /\
    (forall n p e p' f, zero_entry handles n p e p' f -> B_zentry n p e p' f).
  Proof.
    apply block_ind.
    - (* leaf *)
      intros cu ab p e p' f LF A. destruct (leaf_all _ _ _ _ _ _ LF A) as [M IH]. split; [exact M|].
      intros L ska key c CU SH K _ ST. destruct (IH L ska key c CU SH K ST) as (es & ska' & key' & R & K' & SF & W & T).
      exists es, ska', key', c, []. repeat (split; [assumption|]). split; [constructor|]. split; [exact W|]. exact T.
    - (* sequence *)
      intros cu ab p p0 p1 e p' f AP PL D DA BS IH A. pose proof (apart_moves _ _ AP) as M0. pose proof (moves_ascii _ _ M0 A) as A0. pose proof (moves_order _ _ M0) as [B0 B0'].
      destruct (dash_moves _ _ A0 DA) as (M1 & EO & EL & EC). pose proof (moves_ascii _ _ M1 A0) as A1.
      destruct (IH A1) as [G2 IH']. pose proof G2 as [M2 _]. pose proof (moves_order _ _ M2) as [B2 B2'].
      split; [eauto using goes_from|]. intros L ska key c CU SH K SK ST. subst cu. destruct (ST p0 AP) as [S0 _].
      assert (FI : firm c p0) by (eapply deeper_firm; eauto).
      assert (SK' : ska = true \/ line p < line p0) by (destruct PL as [PL|PL]; [destruct (SK PL) as [X|X]; auto|auto]).
      pose proof (dash_step o NE NL p p0 p1 ska key c c 0 A AP K (firm_sets _ _ FI) DA (shaped_block _ _ SH) SK') as TU.
      destruct (roll_deeper c L (snd p0) false SH D) as [E1 E2]. rewrite E1 in TU. change (ends 0 (offset p0)) with (@nil entry) in TU. cbn [app] in TU.
      change (scol (snd p0)) with (column p0) in E2. apply (refresh_seq _ _ _ (snd p0)) in E2.
      destruct (IH' L None _ E2 Logic.I) as (es & ska' & key' & c' & ext & R & K' & SF & SH' & U & W & T).
      destruct (chain o p1 (offset p) (offset p') _ _ _ _ _ TU eq_refl ltac:(repeat constructor; cbn; unfold offset in *; lia) R W ltac:(lia) ltac:(lia)) as (R' & W' & T').
      eexists _, ska', key', c', (ext ++ [(column p0, LSeq)]). split; [exact R'|]. split; [exact K'|]. split; [exact SF|]. split; [rewrite <- app_assoc; exact SH'|]. split.
      { apply Forall_app. split; [|repeat constructor; exact D]. eapply Forall_impl; [|exact U]. cbn. intros [m km]. cbn. destruct (cur L); cbn in *; [lia|trivial]. }
      split; [exact W'|]. intros pre rest DR. rewrite T', app_length. cbn [List.length].
      assert (E3 : toks [mkEntry (Tok TBlockSequenceStart) (sread (snd p0)); mkEntry (Tok TBlockEntry) (offset p1)] = [Tok TBlockSequenceStart; Tok TBlockEntry]).
      { unfold toks, isort. cbn [fold_left ins e_read]. unfold offset in EO |- *. destruct (Nat.leb_spec (sread (snd p0)) (sread (snd p1))); [reflexivity|lia]. }
      rewrite E3. cbn [app]. split; [eapply dressed_starting; [exact DR|]; exists MBlockSequenceStart; cbn; auto 10|].
      destruct (T rest) as (evs & SA & TE). destruct (dress_seq known ab pre evs e DR SA) as (ev & SA' & _ & TN). exists (ev :: evs). split; [exact SA'|apply TN, TE].
    - (* mapping *)
      intros cu ab p p0 d p1 e p' f AP PL D KY BM IH A. pose proof (apart_moves _ _ AP) as M0. pose proof (moves_ascii _ _ M0 A) as A0. pose proof (moves_order _ _ M0) as [B0 B0'].
      destruct (key_moves o NE NL handles _ _ _ _ _ A0 KY) as (M1 & O1 & L1). pose proof (moves_ascii _ _ M1 A0) as A1.
      destruct (IH A1) as [G2 IH']. pose proof G2 as [M2 _]. pose proof (moves_order _ _ M2) as [B2 B2'].
      split; [eauto using goes_from|]. intros L ska key c CU SH K SK ST. subst cu. destruct (ST p0 AP) as [S0 _].
      assert (FI : firm c p0) by (eapply deeper_firm; eauto).
      assert (SK' : ska = true \/ line p < line p0) by (destruct PL as [PL|PL]; [destruct (SK PL) as [X|X]; auto|auto]).
      rewrite <- (shaped_indent _ _ SH), <- (shaped_flow _ _ SH) in KY.
      destruct (key_run o NE NL handles known HK p p0 d p1 _ ska key c c 0 A AP K (firm_sets _ _ FI) FI KY (fun _ => eq_refl) SK') as (kt & kev & es1 & SHW & KD & R1 & W1 & T1).
      destruct (roll_deeper c L (snd p0) true SH D) as [E1 E2]. rewrite E1 in T1. change (scol (snd p0)) with (column p0) in E2.
      destruct (IH' L false _ E2 ltac:(discriminate)) as (es2 & ska' & key' & c' & ext & R2 & K' & SF & SH' & OV & W2 & T2).
      destruct (run_chain o (offset p1) (offset p) (offset p') _ _ _ _ _ R1 (within_wide _ _ _ _ _ W1 B0 (le_n _)) R2 W2 ltac:(lia) ltac:(lia)) as (R & W & T).
      eexists _, ska', key', c', (ext ++ [(column p0, LMap)]). split; [exact R|]. split; [exact K'|]. split; [exact SF|]. split; [rewrite <- app_assoc; exact SH'|]. split.
      { apply Forall_app. split; [|repeat constructor; exact D]. eapply over_deeper; eauto. }
      split; [exact W|]. intros pre rest DR. rewrite T, T1, app_length. cbn [List.length repeat app]. rewrite toks_one. cbn [app]. repeat (rewrite <- app_assoc; cbn [app]).
      split; [eapply dressed_starting; [exact DR|]; exists MBlockMappingStart; cbn; auto 10|].
      destruct (T2 rest) as (evs & SA & TE). destruct (dress_map known ab pre (kev :: evs) (d :: e) DR (said_cons _ _ _ _ SHW SA)) as (ev & SA' & _ & TN).
      exists (ev :: kev :: evs). split; [exact SA'|]. apply TN. apply (TE _ [kev]), keyed_slot, KD.
    - (* mapping with an explicit key *)
      intros cu ab p p0 p1 e p' f AP PL D [CH LO] BM IH A. pose proof (apart_moves _ _ AP) as M0. pose proof (moves_ascii _ _ M0 A) as A0. pose proof (moves_order _ _ M0) as [B0 B0'].
      destruct (char_moves _ _ _ A0 CH ltac:(lia) ltac:(lia) ltac:(lia)) as (M1 & EO & EL). pose proof (moves_ascii _ _ M1 A0) as A1.
      destruct (IH A1) as [G2 IH']. pose proof G2 as [M2 _]. pose proof (moves_order _ _ M2) as [B2 B2'].
      split; [eauto using goes_from|]. intros L ska key c CU SH K SK ST. subst cu. destruct (ST p0 AP) as [S0 _].
      assert (FI : firm c p0) by (eapply deeper_firm; eauto).
      assert (SK' : ska = true \/ line p < line p0) by (destruct PL as [PL|PL]; [destruct (SK PL) as [X|X]; auto|auto]).
      pose proof (question_step o NE NL p p0 p1 ska key c c 0 A AP K (firm_sets _ _ FI) CH (or_intror LO) (or_intror SK')) as TU.
      destruct (roll_deeper c L (snd p0) true SH D) as [E1 E2]. rewrite E1 in TU. change (ends 0 (offset p0)) with (@nil entry) in TU. cbn [app] in TU.
      rewrite (shaped_block _ _ SH) in TU. change (scol (snd p0)) with (column p0) in E2.
      destruct (IH' L _ E2) as (es & ska' & key' & c' & ext & R & K' & SF & SH' & OV & W & T).
      destruct (chain o p1 (offset p) (offset p') _ _ _ _ _ TU eq_refl ltac:(repeat constructor; cbn; unfold offset in *; lia) R W ltac:(lia) ltac:(lia)) as (R' & W' & T').
      eexists _, ska', key', c', (ext ++ [(column p0, LMap)]). split; [exact R'|]. split; [exact K'|]. split; [exact SF|]. split; [rewrite <- app_assoc; exact SH'|]. split.
      { apply Forall_app. split; [|repeat constructor; exact D]. eapply over_deeper; eauto. }
      split; [exact W'|]. intros pre rest DR. rewrite T', app_length. cbn [List.length].
      assert (E3 : toks [mkEntry (Tok TBlockMappingStart) (sread (snd p0)); mkEntry (Tok TKey) (offset p1)] = [Tok TBlockMappingStart; Tok TKey]).
      { unfold toks, isort. cbn [fold_left ins e_read]. unfold offset in EO |- *. destruct (Nat.leb_spec (sread (snd p0)) (sread (snd p1))); [reflexivity|lia]. }
      rewrite E3. cbn [app]. split; [eapply dressed_starting; [exact DR|]; exists MBlockMappingStart; cbn; auto 10|].
      destruct (T rest) as (evs & SA & TE). destruct (dress_map known ab pre evs e DR SA) as (ev & SA' & _ & TN). exists (ev :: evs). split; [exact SA'|apply TN, TE].
    - (* last entry *)
      intros n p d p' f BE IH A. destruct (IH A) as [M IH']. split; [exact M|]. intros L key c SH K.
      destruct (IH' L key c SH K) as (es & ska' & key' & c' & ext & R & K' & SF & SH' & U & W & T).
      exists es, ska', key', c', ext. repeat (split; [assumption|]). intros rest.
      destruct (T (Tok TBlockEnd :: rest)) as (evs & SA & TE); [exists MBlockEnd; cbn; auto|].
      exists (evs ++ [EvSequenceEnd]). split; [apply said_app; [exact SA|reflexivity]|]. eapply tbe_entry; [|apply tbe_end].
      rewrite blockends_app, <- app_assoc. exact TE.
    - (* more entries *)
      intros n p d p1 f1 p2 p3 e p' f BE IH1 AP LL EC DA BS IH2 A. destruct (IH1 A) as [[M1 _] IH1']. pose proof (moves_ascii _ _ M1 A) as A1.
      pose proof (apart_moves _ _ AP) as M2. pose proof (moves_ascii _ _ M2 A1) as A2. destruct (dash_moves _ _ A2 DA) as (M3 & EO & EL & EC3).
      pose proof (moves_ascii _ _ M3 A2) as A3. destruct (IH2 A3) as [G4 IH2']. pose proof G4 as [M4 _].
      pose proof (moves_order _ _ M1) as [B1 B1']. pose proof (moves_order _ _ M2) as [B2 B2']. pose proof (moves_order _ _ M4) as [B4 B4'].
      split; [eauto using goes_from|]. intros L key c SH K.
      destruct (IH1' L key c SH K) as (es1 & ska1 & key1 & c1 & ext1 & R1 & K1 & SF1 & SH1 & U1 & W1 & T1).
      destruct (closes_to c1 ext1 ((n, LSeq) :: L) p2 SH1) as (c2 & SE & SH2); [discriminate|rewrite EC; exact U1|cbn; lia|left; exact Logic.I|].
      pose proof (dash_step o NE NL p1 p2 p3 ska1 key1 c1 c2 _ A1 AP K1 SE DA (shaped_block _ _ SH2) (skip_line _ _ _ _ _ SF1 LL)) as TU.
      rewrite (roll_same_seq _ _ _ _ (snd p2) SH2 eq_refl EC) in TU. cbn [fst snd app] in TU.
      apply (refresh_seq _ _ _ (snd p2)) in SH2.
      destruct (IH2' L None _ SH2 Logic.I) as (es2 & ska' & key' & c' & ext & R2 & K' & SF & SH' & U & W2 & T2).
      assert (WT : within (offset p1) (offset p3) (ends (List.length ext1) (offset p2) ++ [mkEntry (Tok TBlockEntry) (offset p3)])).
      { apply within_app; [apply within_ends; lia|repeat constructor; cbn; lia]. }
      destruct (chain o p3 (offset p1) (offset p') _ _ _ _ _ TU eq_refl WT R2 W2 ltac:(lia) ltac:(lia)) as (R3 & W3 & T3).
      destruct (run_chain o (offset p1) (offset p) (offset p') _ _ _ _ _ R1 W1 R3 W3 ltac:(lia) ltac:(lia)) as (R & W & T).
      eexists _, ska', key', c', ext. split; [exact R|]. split; [exact K'|]. split; [exact SF|]. split; [exact SH'|]. split; [exact U|]. split; [exact W|].
      intros rest. rewrite T, T3.
      rewrite (toks_app (offset p2) (offset p2) (offset p3)) by first [apply within_ends; lia|repeat constructor; cbn; lia].
      rewrite toks_ends, toks_one. destruct (T2 rest) as (ev2 & SA2 & TE2).
      destruct (T1 (Tok TBlockEntry :: toks es2 ++ blockends (List.length ext + 1) ++ rest)) as (ev1 & SA1 & TE1); [exists MBlockEntry; cbn; auto|].
      exists (ev1 ++ ev2). split; [apply said_app; assumption|]. eapply tbe_entry; [|exact TE2].
      rewrite <- !app_assoc. cbn [app]. exact TE1.
    - (* entry *)
      intros n ab p p1 d p' f PR BN IH A. pose proof (props_moves _ _ _ _ _ _ PR) as M1. pose proof (moves_ascii _ _ M1 A) as A1.
      destruct (IH A1) as [G IH']. pose proof G as [M2 _]. pose proof (moves_order _ _ M1) as [B1 _]. pose proof (moves_order _ _ M2) as [B2 _].
      split; [eauto using goes_from|]. intros L key c SH K.
      destruct (props_block _ _ _ _ _ ((n, LSeq) :: L) c true key PR A SH ltac:(intros q F _ _; split; [exact F|exact Logic.I]) K) as (es1 & ska1 & key1 & R1 & K1 & W1 & DR & EK & PL).
      destruct (IH' ((n, LSeq) :: L) ska1 key1 c eq_refl SH K1) as (es & ska' & key' & c' & ext & R & K' & SF & SH' & U & W & T);
        [intros P; left; apply (PL P)|intros p0 _; split; intros; exact Logic.I|].
      destruct (run_chain o (offset p1) (offset p) (offset p') _ _ _ _ _ R1 W1 R W ltac:(lia) ltac:(lia)) as (R2 & W2 & T2).
      eexists _, ska', key', c', ext. split; [exact R2|]. repeat (split; [assumption|]). intros rest _. rewrite T2, <- app_assoc. destruct (T _ rest DR) as [S1 (evs & SA & TE)].
      rewrite EK in TE. exists evs. split; [exact SA|]. apply ts_node; [apply starter_entry, S1|exact TE].
    - (* absent entry *)
      intros n ab p p1 p0 PR AP C A. pose proof (props_moves _ _ _ _ _ _ PR) as M1. split; [split; [exact M1|discriminate]|]. intros L key c SH K.
      destruct (props_block _ _ _ _ _ ((n, LSeq) :: L) c true key PR A SH ltac:(intros q F _ _; split; [exact F|exact Logic.I]) K) as (es1 & ska1 & key1 & R1 & K1 & W1 & DR & EK & PL).
      exists es1, ska1, key1, c, []. split; [exact R1|]. split; [exact K1|]. split; [discriminate|]. split; [exact SH|]. split; [constructor|]. split; [exact W1|].
      intros rest AH. cbn [List.length blockends repeat app]. rewrite <- EK. apply nothing_entry; assumption.
    - (* value and more pairs *)
      intros ex n p d p1 f1 e p' f BV IH1 BP IH2 A. destruct (IH1 A) as [G1 IH1']. pose proof G1 as [M1 _]. pose proof (moves_ascii _ _ M1 A) as A1.
      destruct (IH2 A1) as [G2 IH2']. pose proof G2 as [M2 _]. pose proof (moves_order _ _ M1) as [B1 B1']. pose proof (moves_order _ _ M2) as [B2 B2'].
      split; [eapply pairs_over; eauto|]. intros L ska c SH EX.
      destruct (IH1' L ska None c SH Logic.I EX) as (es1 & ska1 & key1 & c1 & ext1 & R1 & K1 & SF1 & SH1 & OV1 & W1 & T1).
      destruct (IH2' L ext1 ska1 key1 c1 SH1 OV1 K1 (run_old o NE NL _ _ _ R1 A Logic.I) SF1) as (es2 & ska' & key' & c' & ext & R2 & K' & SF & SH' & OV & W2 & T2).
      destruct (run_chain o (offset p1) (offset p) (offset p') _ _ _ _ _ R1 W1 R2 W2 ltac:(lia) ltac:(lia)) as (R & W & T).
      eexists _, ska', key', c', ext. split; [exact R|]. split; [exact K'|]. split; [exact SF|]. split; [exact SH'|]. split; [exact OV|]. split; [exact W|].
      intros rest. destruct (T2 rest) as (ts & ev2 & ET & AH & SA2 & TE2). destruct AH as (m & EM & IM).
      destruct (T1 ts) as (ev1 & SA1 & TE1); [exists m; split; [exact EM|cbn in IM |- *; tauto]|].
      exists (ev1 ++ ev2). split; [apply said_app; assumption|]. intros kts kevs KD. rewrite T, <- app_assoc, ET in KD |- *.
      eapply tbp_pair; [exact KD|apply tv_value; exact TE1|exact TE2].
    - (* explicit key and value *)
      intros n p d p1 f1 p2 p3 e p' f BV IH1 AP LL EC [CH LO] BM IH2 A. destruct (IH1 A) as [G1 IH1']. pose proof G1 as [M1 _]. pose proof (moves_ascii _ _ M1 A) as A1.
      pose proof (apart_moves _ _ AP) as M2. pose proof (moves_ascii _ _ M2 A1) as A2.
      destruct (char_moves _ _ _ A2 CH ltac:(lia) ltac:(lia) ltac:(lia)) as (M3 & EO & EL). pose proof (moves_ascii _ _ M3 A2) as A3.
      destruct (IH2 A3) as [G4 IH2']. pose proof G4 as [M4 _].
      pose proof (moves_order _ _ M1) as [B1 B1']. pose proof (moves_order _ _ M2) as [B2 B2']. pose proof (moves_order _ _ M4) as [B4 B4'].
      split; [eauto using goes_from|]. intros L c SH.
      destruct (IH1' L true None c SH Logic.I (fun _ => eq_refl)) as (es1 & ska1 & key1 & c1 & ext1 & R1 & K1 & SF1 & SH1 & OV1 & W1 & T1).
      destruct (closes_over _ _ _ _ _ _ _ SH1 OV1 AP LL EC (char_no_dash _ _ _ CH ltac:(discriminate))) as (c2 & SE & SH2).
      pose proof (colon_step o NE NL p1 p2 p3 ska1 key1 c1 c2 _ A1 AP K1 SE CH (or_intror LO) (or_intror (skip_line _ _ _ _ _ SF1 LL))
        (skip_key _ _ _ _ _ SF1 LL (run_old o NE NL _ _ _ R1 A Logic.I))) as TU.
      rewrite (roll_same_map _ _ _ (snd p2) SH2 EC), (shaped_block _ _ SH2) in TU. cbn [fst snd app] in TU.
      destruct (IH2' L true c2 SH2 (fun _ => eq_refl)) as (es3 & ska' & key' & c' & ext & R3 & K' & SF & SH' & OV & W3 & T3).
      assert (WT : within (offset p1) (offset p3) (ends (List.length ext1) (offset p2) ++ [mkEntry (Tok TValue) (offset p3)])).
      { apply within_app; [apply within_ends; lia|repeat constructor; cbn; lia]. }
      destruct (chain o p3 (offset p1) (offset p') _ _ _ _ _ TU eq_refl WT R3 W3 ltac:(lia) ltac:(lia)) as (R4 & W4 & T4).
      destruct (run_chain o (offset p1) (offset p) (offset p') _ _ _ _ _ R1 W1 R4 W4 ltac:(lia) ltac:(lia)) as (R & W & T).
      eexists _, ska', key', c', ext. split; [exact R|]. split; [exact K'|]. split; [exact SF|]. split; [exact SH'|]. split; [exact OV|]. split; [exact W|].
      intros rest. rewrite T, T4.
      rewrite (toks_app (offset p2) (offset p2) (offset p3)) by first [apply within_ends; lia|repeat constructor; cbn; lia].
      rewrite toks_ends, toks_one. destruct (T3 rest) as (ev2 & SA2 & TE2).
      destruct (T1 (Tok TValue :: toks es3 ++ blockends (List.length ext + 1) ++ rest)) as (ev1 & SA1 & TE1); [exists MValue; cbn; auto|].
      exists (ev1 ++ ev2). split; [apply said_app; assumption|]. specialize (TE2 (toks es1 ++ blockends (List.length ext1)) ev1).
      repeat (rewrite <- app_assoc in TE2; cbn [app] in TE2). repeat (rewrite <- app_assoc; cbn [app]). apply TE2, TE1.
    - (* explicit key without a value *)
      intros n p d p1 f1 e p' f BV IH1 BP IH2 A. destruct (IH1 A) as [G1 IH1']. pose proof G1 as [M1 _]. pose proof (moves_ascii _ _ M1 A) as A1.
      destruct (IH2 A1) as [G2 IH2']. pose proof G2 as [M2 _]. pose proof (moves_order _ _ M1) as [B1 B1']. pose proof (moves_order _ _ M2) as [B2 B2'].
      split; [eapply pairs_over; eauto|]. intros L c SH.
      destruct (IH1' L true None c SH Logic.I (fun _ => eq_refl)) as (es1 & ska1 & key1 & c1 & ext1 & R1 & K1 & SF1 & SH1 & OV1 & W1 & T1).
      destruct (IH2' L ext1 ska1 key1 c1 SH1 OV1 K1 (run_old o NE NL _ _ _ R1 A Logic.I) SF1) as (es2 & ska' & key' & c' & ext & R2 & K' & SF & SH' & OV & W2 & T2).
      destruct (run_chain o (offset p1) (offset p) (offset p') _ _ _ _ _ R1 W1 R2 W2 ltac:(lia) ltac:(lia)) as (R & W & T).
      eexists _, ska', key', c', ext. split; [exact R|]. split; [exact K'|]. split; [exact SF|]. split; [exact SH'|]. split; [exact OV|]. split; [exact W|].
      intros rest. destruct (T2 rest) as (ts & ev2 & ET & AH & SA2 & TE2). destruct AH as (m & EM & IM).
      destruct (T1 ts) as (ev1 & SA1 & TE1); [exists m; split; [exact EM|cbn in IM |- *; tauto]|].
      exists (ev1 ++ [absent Value] ++ ev2). split; [apply said_app; [exact SA1|apply said_cons; [reflexivity|exact SA2]]|]. rewrite T, <- app_assoc, ET.
      eapply tbp_pair; [exact TE1|apply tv_absent|exact TE2]. exists m. split; [exact EM|]. cbn in IM |- *. intuition congruence.
    - (* no more pairs *)
      intros n p f A. split; [split; [apply reads_here|auto]|]. intros L ext0 ska key c SH OV K OL SF.
      exists [], ska, key, c, ext0. split; [apply run_nil|]. split; [exact K|]. split; [exact SF|]. split; [exact SH|]. split; [exact OV|]. split; [constructor|].
      intros rest. exists (Tok TBlockEnd :: rest), [EvMappingEnd]. split; [rewrite blockends_app, <- app_assoc; reflexivity|]. split; [exists MBlockEnd; cbn; auto|]. split; [reflexivity|apply tbp_end].
    - (* next key *)
      intros n p1 f1 p2 x p3 e p' f AP LL EC KY BM IH2 A1.
      pose proof (apart_moves _ _ AP) as M2. pose proof (moves_ascii _ _ M2 A1) as A2. destruct (key_moves o NE NL handles _ _ _ _ _ A2 KY) as (M3 & O3 & EL).
      pose proof (moves_ascii _ _ M3 A2) as A3. destruct (IH2 A3) as [G4 IH2']. pose proof G4 as [M4 GL].
      pose proof (moves_order _ _ M2) as [B2 B2']. pose proof (moves_order _ _ M4) as [B4 B4'].
      split; [split; [eauto using moves_trans|intros F; right; specialize (GL F); lia]|]. intros L ext1 ska1 key1 c1 SH1 OV1 K1 OL SF1.
      destruct (closes_over _ _ _ _ _ _ _ SH1 OV1 AP LL EC (key_no_marker _ _ _ _ KY)) as (c2 & SE & SH2).
      assert (FI : firm c2 p2) by (eapply shaped_firm; [exact SH2|cbn; lia|exact Logic.I]).
      change (indent_of (Some n)) with (indent_of (cur ((n, LMap) :: L))) in KY. rewrite <- (shaped_indent _ _ SH2), <- (shaped_flow _ _ SH2) in KY.
      destruct (key_run o NE NL handles known HK p1 p2 x p3 _ ska1 key1 c1 c2 _ A1 AP K1 SE FI KY (fun _ => eq_refl) (skip_line _ _ _ _ _ SF1 LL)) as (kt & kev & es2 & SHW & KD & R2 & W2 & T2).
      rewrite (roll_same_map _ _ _ (snd p2) SH2 EC) in R2, T2. cbn [fst snd] in R2, T2. change (toks []) with (@nil maybe_token) in T2. cbn [app] in T2.
      destruct (IH2' L false c2 SH2 ltac:(discriminate)) as (es3 & ska' & key' & c' & ext & R3 & K' & SF & SH' & OV & W3 & T3).
      destruct (run_chain o (offset p3) (offset p1) (offset p') _ _ _ _ _ R2 (within_wide _ _ _ _ _ W2 B2 (le_n _)) R3 W3 ltac:(lia) ltac:(lia)) as (R & W & T).
      eexists _, ska', key', c', ext. split; [exact R|]. split; [exact K'|]. split; [exact SF|]. split; [exact SH'|]. split; [exact OV|]. split; [exact W|].
      intros rest. rewrite T, T2. destruct (T3 rest) as (ev2 & SA2 & TE2).
      exists (Tok TKey :: kt ++ Tok TValue :: toks es3 ++ blockends (List.length ext + 1) ++ rest), ([kev] ++ ev2).
      split; [repeat (rewrite <- app_assoc; cbn [app]); reflexivity|]. split; [exists MKey; cbn; auto|]. split; [apply said_cons; assumption|apply TE2, keyed_slot, KD].
    - (* next explicit key *)
      intros n p1 f1 p2 p3 e p' f AP LL EC [CH LO] BM IH2 A1.
      pose proof (apart_moves _ _ AP) as M2. pose proof (moves_ascii _ _ M2 A1) as A2.
      destruct (char_moves _ _ _ A2 CH ltac:(lia) ltac:(lia) ltac:(lia)) as (M3 & EO & EL). pose proof (moves_ascii _ _ M3 A2) as A3.
      destruct (IH2 A3) as [G4 IH2']. pose proof G4 as [M4 GL].
      pose proof (moves_order _ _ M2) as [B2 B2']. pose proof (moves_order _ _ M4) as [B4 B4'].
      split; [split; [eauto using moves_trans|intros F; right; specialize (GL F); lia]|]. intros L ext1 ska1 key1 c1 SH1 OV1 K1 OL SF1.
      destruct (closes_over _ _ _ _ _ _ _ SH1 OV1 AP LL EC (char_no_dash _ _ _ CH ltac:(discriminate))) as (c2 & SE & SH2).
      pose proof (question_step o NE NL p1 p2 p3 ska1 key1 c1 c2 _ A1 AP K1 SE CH (or_intror LO) (or_intror (skip_line _ _ _ _ _ SF1 LL))) as TU.
      rewrite (roll_same_map _ _ _ (snd p2) SH2 EC), (shaped_block _ _ SH2) in TU. cbn [fst snd app] in TU.
      destruct (IH2' L c2 SH2) as (es3 & ska' & key' & c' & ext & R3 & K' & SF & SH' & OV & W3 & T3).
      assert (WT : within (offset p1) (offset p3) (ends (List.length ext1) (offset p2) ++ [mkEntry (Tok TKey) (offset p3)])).
      { apply within_app; [apply within_ends; lia|repeat constructor; cbn; lia]. }
      destruct (chain o p3 (offset p1) (offset p') _ _ _ _ _ TU eq_refl WT R3 W3 ltac:(lia) ltac:(lia)) as (R & W & T).
      eexists _, ska', key', c', ext. split; [exact R|]. split; [exact K'|]. split; [exact SF|]. split; [exact SH'|]. split; [exact OV|]. split; [exact W|].
      intros rest. rewrite T.
      rewrite (toks_app (offset p2) (offset p2) (offset p3)) by first [apply within_ends; lia|repeat constructor; cbn; lia].
      rewrite toks_ends, toks_one. destruct (T3 rest) as (ev2 & SA2 & TE2).
      exists (Tok TKey :: toks es3 ++ blockends (List.length ext + 1) ++ rest), ev2.
      split; [repeat (rewrite <- app_assoc; cbn [app]); reflexivity|]. split; [exists MKey; cbn; auto|]. split; [exact SA2|exact TE2].
    - (* leaf value *)
      intros k ex n ab p p1 d p' f PR LF A. pose proof (props_moves _ _ _ _ _ _ PR) as M1. pose proof (moves_ascii _ _ M1 A) as A1.
      destruct (leaf_all _ _ _ _ _ _ LF A1) as [G IH]. pose proof G as [M2 _]. pose proof (moves_order _ _ M1) as [B1 _]. pose proof (moves_order _ _ M2) as [B2 _].
      split; [eauto using goes_from|]. intros L ska key c SH K EX.
      destruct (props_block _ _ _ _ _ ((n, LMap) :: L) c ska key PR A SH ltac:(intros q F _ _; split; [exact F|exact Logic.I]) K) as (es1 & ska1 & key1 & R1 & K1 & W1 & DR & EK & PL).
      destruct (IH ((n, LMap) :: L) ska1 key1 c eq_refl SH K1) as (es & ska' & key' & R & K' & SF & W & T); [intros p0 _; split; intros; exact Logic.I|].
      destruct (run_chain o (offset p1) (offset p) (offset p') _ _ _ _ _ R1 W1 R W ltac:(lia) ltac:(lia)) as (R2 & W2 & T2).
      eexists _, ska', key', c, []. split; [exact R2|]. split; [exact K'|]. split; [exact SF|]. split; [exact SH|]. split; [left; constructor|]. split; [exact W2|].
      intros rest _. rewrite T2, <- app_assoc. destruct (T _ rest DR) as [S1 (evs & SA & TE)]. rewrite EK in TE. exists evs. split; [exact SA|]. apply ts_node; [apply starter_pair, S1|exact TE].
    - (* value below *)
      intros k ex n ab p p1 p0 d p' f PR AP LL BN IH A. pose proof (props_moves _ _ _ _ _ _ PR) as M1. pose proof (moves_ascii _ _ M1 A) as A1.
      destruct (IH A1) as [G IH']. pose proof G as [M2 _]. pose proof (moves_order _ _ M1) as [B1 _]. pose proof (moves_order _ _ M2) as [B2 _].
      split; [eauto using goes_from|]. intros L ska key c SH K EX.
      destruct (props_block _ _ _ _ _ ((n, LMap) :: L) c ska key PR A SH ltac:(intros q F _ _; split; [exact F|exact Logic.I]) K) as (es1 & ska1 & key1 & R1 & K1 & W1 & DR & EK & PL).
      destruct (IH' ((n, LMap) :: L) ska1 key1 c eq_refl SH K1) as (es & ska' & key' & c' & ext & R & K' & SF & SH' & U & W & T).
      { intros PP. destruct LL as [LL|LL]; [left; destruct (PL PP) as [-> _]; exact (EX LL)|right]. intros q AP'. rewrite <- (apart_det _ _ _ AP AP'). exact LL. }
      { intros q _; split; intros; exact Logic.I. }
      destruct (run_chain o (offset p1) (offset p) (offset p') _ _ _ _ _ R1 W1 R W ltac:(lia) ltac:(lia)) as (R2 & W2 & T2).
      eexists _, ska', key', c', ext. split; [exact R2|]. split; [exact K'|]. split; [exact SF|]. split; [exact SH'|]. split; [left; exact U|]. split; [exact W2|].
      intros rest _. rewrite T2, <- app_assoc. destruct (T _ rest DR) as [S1 (evs & SA & TE)]. rewrite EK in TE. exists evs. split; [exact SA|]. apply ts_node; [apply starter_pair, S1|exact TE].
    - (* sequence in the column of the mapping *)
      intros k ex n ab p q1 p0 p1 e p' f PR AP LL EC DA ZS IH A. pose proof (props_moves _ _ _ _ _ _ PR) as MP. pose proof (moves_ascii _ _ MP A) as AQ. pose proof (moves_order _ _ MP) as [BP _].
      pose proof (apart_moves _ _ AP) as M0. pose proof (moves_ascii _ _ M0 AQ) as A0. pose proof (moves_order _ _ M0) as [B0 B0'].
      destruct (dash_moves _ _ A0 DA) as (M1 & EO & EL & EC1). pose proof (moves_ascii _ _ M1 A0) as A1.
      destruct (IH A1 ltac:(lia)) as (G2 & NB & IH'). pose proof G2 as [M2 _]. pose proof (moves_order _ _ M2) as [B2 B2'].
      split; [eauto using goes_from|]. intros L ska key c SH K EX.
      destruct (props_block _ _ _ _ _ ((n, LMap) :: L) c ska key PR A SH ltac:(intros q F _ _; split; [exact F|exact Logic.I]) K) as (es1 & ska1 & key1 & R1 & K1 & W1 & DR & EK & PL).
      assert (FI : firm c p0) by (eapply shaped_firm; [exact SH|cbn; lia|exact Logic.I]).
      pose proof (dash_step o NE NL q1 p0 p1 ska1 key1 c c 0 AQ AP K1 (firm_sets _ _ FI) DA (shaped_block _ _ SH) (or_intror LL)) as TU.
      destruct (roll_zero c n L (snd p0) SH EC) as [E1 E2]. rewrite E1 in TU. change (ends 0 (offset p0)) with (@nil entry) in TU. cbn [app] in TU.
      apply (refresh_zero _ _ _ _ (snd p0)) in E2; [|exact EC|lia]. change (slines (snd p0)) with (line p0) in E2. rewrite <- EL in E2.
      destruct (IH' L None _ E2 Logic.I) as (es & ska' & key' & c' & ext & ln & R & K' & SF & SH' & U & (LN & LN') & W & T).
      destruct (chain o p1 (offset q1) (offset p') _ _ _ _ _ TU eq_refl ltac:(repeat constructor; cbn; unfold offset in *; lia) R W ltac:(lia) ltac:(lia)) as (R' & W' & T').
      destruct (run_chain o (offset q1) (offset p) (offset p') _ _ _ _ _ R1 W1 R' W' ltac:(lia) ltac:(lia)) as (R2 & W2 & T2).
      eexists _, ska', key', c', (ext ++ [(n, LZero ln)]). split; [exact R2|]. split; [exact K'|]. split; [exact SF|]. split; [rewrite <- app_assoc; exact SH'|]. split.
      { right. exists ext, ln. split; [reflexivity|]. split; [exact U|]. split; [exact LN|]. split; [exact LN'|exact NB]. }
      split; [exact W2|]. intros rest _. rewrite T2, T', app_length. cbn [List.length].
      assert (E3 : toks [mkEntry (Tok TBlockSequenceStart) (sread (snd p0)); mkEntry (Tok TBlockEntry) (offset p1)] = [Tok TBlockSequenceStart; Tok TBlockEntry]).
      { unfold toks, isort. cbn [fold_left ins e_read]. unfold offset in EO |- *. destruct (Nat.leb_spec (sread (snd p0)) (sread (snd p1))); [reflexivity|lia]. }
      rewrite E3. rewrite <- app_assoc. cbn [app].
      destruct (T rest) as (evs & SA & TE). destruct (dress_seq known ab _ evs e DR SA) as (ev & SA' & _ & TN). exists (ev :: evs). split; [exact SA'|].
      apply ts_node; [apply starter_pair; eapply dressed_starting; [exact DR|]; exists MBlockSequenceStart; cbn; auto 10|].
      rewrite <- EK. apply TN, TE.
    - (* absent value *)
      intros k ex n ab p p1 p0 PR AP C A. pose proof (props_moves _ _ _ _ _ _ PR) as M1. split; [split; [exact M1|discriminate]|]. intros L ska key c SH K EX.
      destruct (props_block _ _ _ _ _ ((n, LMap) :: L) c ska key PR A SH ltac:(intros q F _ _; split; [exact F|exact Logic.I]) K) as (es1 & ska1 & key1 & R1 & K1 & W1 & DR & EK & PL).
      exists es1, ska1, key1, c, []. split; [exact R1|]. split; [exact K1|]. split; [discriminate|]. split; [exact SH|]. split; [left; constructor|]. split; [exact W1|].
      intros rest AH. cbn [List.length blockends repeat app]. rewrite <- EK. apply nothing_value; assumption.
    - (* last entry in the column of the mapping *)
      intros n p d p' f p0 ZE IH AP NB A C. destruct (IH A C) as [G IH']. split; [exact G|]. split.
      { intros q AP'. rewrite <- (apart_det _ _ _ AP AP'). exact NB. }
      pose proof G as [M GL]. pose proof (moves_order _ _ M) as [_ BL].
      intros L key c SH K. destruct (IH' L key c SH K) as (es & ska' & key' & c' & ext & R & K' & SF & SH' & U & W & T).
      exists es, ska', key', c', ext, (line p). repeat (split; [assumption|]). split; [split; [exact BL|exact GL]|]. split; [exact W|]. intros rest.
      destruct (T (Tok TBlockEnd :: rest)) as (evs & SA & TE); [exists MBlockEnd; cbn; auto|].
      exists (evs ++ [EvSequenceEnd]). split; [apply said_app; [exact SA|reflexivity]|]. eapply tbe_entry; [|apply tbe_end].
      rewrite blockends_app, <- app_assoc. exact TE.
    - (* more entries in the column of the mapping *)
      intros n p d p1 f1 p2 p3 e p' f ZE IH1 AP LL EC DA ZS IH2 A C. destruct (IH1 A C) as [[M1 _] IH1']. pose proof (moves_ascii _ _ M1 A) as A1.
      pose proof (apart_moves _ _ AP) as M2. pose proof (moves_ascii _ _ M2 A1) as A2. destruct (dash_moves _ _ A2 DA) as (M3 & EO & EL & EC3).
      pose proof (moves_ascii _ _ M3 A2) as A3. destruct (IH2 A3 ltac:(lia)) as (G4 & NB & IH2'). pose proof G4 as [M4 _].
      pose proof (moves_order _ _ M1) as [B1 B1']. pose proof (moves_order _ _ M2) as [B2 B2']. pose proof (moves_order _ _ M4) as [B4 B4'].
      split; [eauto using goes_from|]. split; [exact NB|]. intros L key c SH K.
      destruct (IH1' L key c SH K) as (es1 & ska1 & key1 & c1 & ext1 & R1 & K1 & SF1 & SH1 & U1 & W1 & T1).
      destruct (closes_to c1 ext1 _ p2 SH1) as (c2 & SE & SH2); [discriminate|rewrite EC; exact U1|cbn; lia|right; eapply dash_begins; exact DA|].
      pose proof (dash_step o NE NL p1 p2 p3 ska1 key1 c1 c2 _ A1 AP K1 SE DA (shaped_block _ _ SH2) (skip_line _ _ _ _ _ SF1 LL)) as TU.
      rewrite (roll_same_seq _ _ _ _ (snd p2) SH2 eq_refl EC) in TU. cbn [fst snd app] in TU.
      apply (refresh_zero _ _ _ _ (snd p2)) in SH2; [|exact EC|unfold line in *; lia]. change (slines (snd p2)) with (line p2) in SH2. rewrite <- EL in SH2.
      destruct (IH2' L None _ SH2 Logic.I) as (es2 & ska' & key' & c' & ext & ln & R2 & K' & SF & SH' & U & LN & W2 & T2).
      assert (WT : within (offset p1) (offset p3) (ends (List.length ext1) (offset p2) ++ [mkEntry (Tok TBlockEntry) (offset p3)])).
      { apply within_app; [apply within_ends; lia|repeat constructor; cbn; lia]. }
      destruct (chain o p3 (offset p1) (offset p') _ _ _ _ _ TU eq_refl WT R2 W2 ltac:(lia) ltac:(lia)) as (R3 & W3 & T3).
      destruct (run_chain o (offset p1) (offset p) (offset p') _ _ _ _ _ R1 W1 R3 W3 ltac:(lia) ltac:(lia)) as (R & W & T).
      eexists _, ska', key', c', ext, ln. split; [exact R|]. split; [exact K'|]. split; [exact SF|]. split; [exact SH'|]. split; [exact U|]. split; [exact LN|]. split; [exact W|].
      intros rest. rewrite T, T3.
      rewrite (toks_app (offset p2) (offset p2) (offset p3)) by first [apply within_ends; lia|repeat constructor; cbn; lia].
      rewrite toks_ends, toks_one. destruct (T2 rest) as (ev2 & SA2 & TE2).
      destruct (T1 (Tok TBlockEntry :: toks es2 ++ blockends (List.length ext + 1) ++ rest)) as (ev1 & SA1 & TE1); [exists MBlockEntry; cbn; auto|].
      exists (ev1 ++ ev2). split; [apply said_app; assumption|]. eapply tbe_entry; [|exact TE2].
      rewrite <- !app_assoc. cbn [app]. exact TE1.
    - (* entry in the column of the mapping *)
      intros n ab p p1 p0 d p' f PR AP LL NF BN IH A C. pose proof (props_moves _ _ _ _ _ _ PR) as M1. pose proof (moves_ascii _ _ M1 A) as A1.
      destruct (IH A1) as [G IH']. pose proof G as [M2 _]. pose proof (moves_order _ _ M1) as [B1 B1']. pose proof (moves_order _ _ M2) as [B2 _].
      split; [eauto using goes_from|]. intros L key c SH K.
      assert (FI : forall q, line q = line p -> moves p q -> line q <= line p1 -> deeper (cur ((n, LZero (line p)) :: (n, LMap) :: L)) (column q) /\ steady ((n, LZero (line p)) :: (n, LMap) :: L) (line q)).
      { intros q F M _. split; [cbn; pose proof (moves_col _ _ M (eq_sym F)); lia|cbn; lia]. }
      destruct (props_block _ _ _ _ _ _ c true key PR A SH FI K) as (es1 & ska1 & key1 & R1 & K1 & W1 & DR & EK & PL).
      destruct (IH' ((n, LZero (line p)) :: (n, LMap) :: L) ska1 key1 c eq_refl SH K1) as (es & ska' & key' & c' & ext & R & K' & SF & SH' & U & W & T); [intros P; left; apply (PL P)| |].
      { intros q AP'. rewrite <- (apart_det _ _ _ AP AP'). split; [cbn; lia|]. intros X. specialize (NF X). cbn. lia. }
      destruct (run_chain o (offset p1) (offset p) (offset p') _ _ _ _ _ R1 W1 R W ltac:(lia) ltac:(lia)) as (R2 & W2 & T2).
      eexists _, ska', key', c', ext. split; [exact R2|]. repeat (split; [assumption|]). intros rest _. rewrite T2, <- app_assoc. destruct (T _ rest DR) as [S1 (evs & SA & TE)].
      rewrite EK in TE. exists evs. split; [exact SA|]. apply ts_node; [apply starter_entry, S1|exact TE].
    - (* absent entry in the column of the mapping *)
      intros n ab p p1 p0 PR AP C A C'. pose proof (props_moves _ _ _ _ _ _ PR) as M1. split; [split; [exact M1|discriminate]|]. intros L key c SH K.
      assert (FI : forall q, line q = line p -> moves p q -> line q <= line p1 -> deeper (cur ((n, LZero (line p)) :: (n, LMap) :: L)) (column q) /\ steady ((n, LZero (line p)) :: (n, LMap) :: L) (line q)).
      { intros q F M _. split; [cbn; pose proof (moves_col _ _ M (eq_sym F)); lia|cbn; lia]. }
      destruct (props_block _ _ _ _ _ _ c true key PR A SH FI K) as (es1 & ska1 & key1 & R1 & K1 & W1 & DR & EK & PL).
      exists es1, ska1, key1, c, []. split; [exact R1|]. split; [exact K1|]. split; [discriminate|]. split; [exact SH|]. split; [constructor|]. split; [exact W1|].
      intros rest AH. cbn [List.length blockends repeat app]. rewrite <- EK. apply nothing_entry; assumption.
  Qed.
End Block.
End Used.
