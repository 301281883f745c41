(** What readers keep of their input, and where the texts of tokens lie. *)
From Verif Require Import SpecUtf8 Utf8Facts QuotedFacts FlowFacts Contract LexFacts StreamFacts.
From Verif Require Import SpecOwned Reader CutFacts CutLeaf CutScalar CutBlock CutScan CutRounds Chunks.
From Coq Require Import Permutation Lia ZifyBool ZifyN ZifyNat.
Open Scope nat_scope.

(** ** Parts of texts *)
Lemma part_refl b : part_of b b. Proof. exists [], []. rewrite app_nil_r. reflexivity. Qed.
Lemma part_trans x y z : part_of x y -> part_of y z -> part_of x z.
Proof. intros (p & q & ->) (p' & q' & ->). exists (p' ++ p), (q ++ q'). rewrite !app_assoc. reflexivity. Qed.
Lemma part_skipn n b : part_of (skipn n b) b.
Proof. exists (firstn n b), []. rewrite app_nil_r. symmetry. apply firstn_skipn. Qed.
Lemma part_firstn n b : part_of (firstn n b) b.
Proof. exists [], (skipn n b). symmetry. apply (firstn_skipn n b). Qed.
Lemma part_nil b : part_of [] b. Proof. exists [], b. reflexivity. Qed.
Lemma part_suffix b b' : suffix_of b b' -> part_of b' b.
Proof. intros (n & -> & _). apply part_skipn. Qed.
Lemma skip_part (b b' : str) n : @skip scan_error b n = Ok b' -> part_of b' b.
Proof. unfold skip. destruct (is_boundary b n); [|discriminate]. intros Q. assert (b' = skipn n b) as -> by congruence. apply part_skipn. Qed.
Lemma slice_part (b t : str) i j : @slice scan_error b i j = Ok t -> part_of t b.
Proof.
  unfold slice. destruct (Nat.leb i j && is_boundary b i && is_boundary b j); [|discriminate].
  intros Q. assert (t = firstn (j - i) (skipn i b)) as -> by congruence.
  eapply part_trans; [apply part_firstn|apply part_skipn].
Qed.
Lemma adv_part b st n b' st' : adv b st n = Ok (b', st') -> part_of b' b.
Proof. intros Q. apply adv_skip in Q. subst b'. apply part_skipn. Qed.
Lemma eat_part o b st c b' st' : eat_whitespace o b st c = Ok (b', st') -> part_of b' b.
Proof.
  intros Q. pose proof (eat_ws_leaf o b st c) as L. rewrite Q in L. cbn in L.
  apply reads_len in L. destruct L as (_ & _ & E). rewrite E. apply part_skipn.
Qed.

Definition cow_in (c : cow) (b : str) : Prop := Forall (fun y => part_of y b) (cow_texts c).
Definition token_in (t : token) (b : str) : Prop := Forall (fun y => part_of y b) (token_texts t).
Definition maybe_in (m : maybe_token) (b : str) : Prop := Forall (fun y => part_of y b) (entry_texts (mkEntry m 0)).
Lemma part_all l b b' : Forall (fun y => part_of y b) l -> part_of b b' -> Forall (fun y => part_of y b') l.
Proof. intros H P. eapply Forall_impl; [|exact H]. cbn. intros y Y. eapply part_trans; eauto. Qed.
Lemma cow_in_borrowed t b : part_of t b -> cow_in (Borrowed t) b. Proof. intros H. repeat constructor. exact H. Qed.
Lemma cow_in_owned t b : cow_in (Owned t) b. Proof. constructor. Qed.
Lemma two_in (P : str -> Prop) a b : Forall P a -> Forall P b -> Forall P (a ++ b).
Proof. intros. apply Forall_app. auto. Qed.
Lemma owned_in t b : token_in t b -> token_in (token_into_owned t) b.
Proof. intros H. unfold token_in in *. destruct t; cbn; try constructor; try exact H. Qed.

(** ** The leaves *)
Ltac inv := match goal with
  | H : bind ?m ?k = Ok _ |- _ => let a := fresh "a" in let E := fresh "E" in apply bind_inv in H; destruct H as (a & E & H); cbn beta in H
  end.
Lemma uri_in o b st bo v c n st' bo' : scan_tag_uri o b st bo v = Ok (c, n, st', bo') -> cow_in c b.
Proof.
  unfold scan_tag_uri. intros H. inv. destruct a as [[[buf s1] scr] bb]. destruct bb; inv.
  - assert (c = Borrowed a) as -> by congruence. apply cow_in_borrowed. eapply slice_part; eauto.
  - assert (c = Owned a) as -> by congruence. apply cow_in_owned.
Qed.
Lemma handle_in o b st h n st' : scan_tag_handle o b st = Ok (Some (h, n), st') -> part_of (handle_str h) b.
Proof.
  unfold scan_tag_handle. intros H. inv. destruct b as [|x b]; [discriminate|]. destruct (x =? 33)%N; [|discriminate].
  inv. inv. inv. destruct (at_is _ _ _).
  - inv. assert (part_of a3 (x :: b)) as P by (eapply slice_part; eauto).
    destruct a1; match type of H with Ok (Some (?y, _), _) = _ => assert (h = y) as -> by congruence end; exact P.
  - destruct (_ && _).
    + inv. assert (part_of a3 (x :: b)) as P by (eapply slice_part; eauto).
      match type of H with Ok (Some (?y, _), _) = _ => assert (h = y) as -> by congruence end; exact P.
    + destruct (Nat.ltb _ _); discriminate.
Qed.
Lemma assemble_in h c bo b : part_of h b -> cow_in c b -> token_in (assemble_tag h c bo) b.
Proof.
  intros P C. unfold assemble_tag. assert (token_in (TTag (Borrowed h) c) b) as T.
  { unfold token_in. cbn [token_texts]. apply two_in; [apply cow_in_borrowed, P|exact C]. }
  destruct bo; [exact T|apply owned_in, T].
Qed.
Lemma cow_in_trans c b b' : cow_in c b -> part_of b b' -> cow_in c b'.
Proof. intros H P. eapply part_all; eauto. Qed.
Lemma tag_in o b st t n st' : scan_node_tag o b st = Ok (t, n, st') -> token_in t b.
Proof.
  unfold scan_node_tag. intros H. inv. inv. destruct a0 as [[[tok buf] amt] s1].
  inv. assert (t = tok) as -> by congruence. clear H E E1.
  destruct (starts_with b (bytes "!<")).
  - inv. inv. destruct a2 as [[[uri k] s2] bo]. inv. destruct (at_is _ _ _).
    + match type of E0 with Ok (?y, _, _, _) = _ => assert (tok = y) as -> by congruence end.
      apply assemble_in; [apply part_nil|]. eapply cow_in_trans; [eapply uri_in; eauto|eapply skip_part; eauto].
    + destruct (Nat.ltb _ _); discriminate.
  - inv. destruct a1 as [[[h k]|] s2].
    + pose proof (handle_in _ _ _ _ _ _ E) as P. destruct h as [h|h|h]; cbn [handle_str] in P.
      * match type of E0 with Ok (?y, _, _, _) = _ => assert (tok = y) as -> by congruence end.
        unfold token_in. cbn [token_texts]. apply two_in; apply cow_in_borrowed; [exact P|apply part_nil].
      * inv. inv. destruct a2 as [[[c k'] s3] bo]. match type of E0 with Ok (?y, _, _, _) = _ => assert (tok = y) as -> by congruence end.
        apply assemble_in; [exact P|]. eapply cow_in_trans; [eapply uri_in; eauto|eapply skip_part; eauto].
      * inv. inv. destruct a2 as [[[c k'] s3] bo]. match type of E0 with Ok (?y, _, _, _) = _ => assert (tok = y) as -> by congruence end.
        apply assemble_in; [exact P|]. eapply cow_in_trans; [eapply uri_in; eauto|eapply skip_part; eauto].
    + inv. inv. inv. destruct a3 as [b1 s3]. inv. destruct a3 as [[[c k'] s4] bo].
      match type of E0 with Ok (?y, _, _, _) = _ => assert (tok = y) as -> by congruence end.
      apply assemble_in; [eapply slice_part; eauto|]. eapply cow_in_trans; [eapply uri_in; eauto|eapply adv_part; eauto].
Qed.
Lemma tag_directive_in o b st t n st' : scan_tag_directive o b st = Ok (t, n, st') -> token_in t b.
Proof.
  unfold scan_tag_directive. intros H. inv. destruct a as [[[h k]|] s1]; [|discriminate].
  pose proof (handle_in _ _ _ _ _ _ E) as P. inv. inv. destruct (is_empty a); [discriminate|]. destruct (negb (is_blank a)); [discriminate|].
  inv. destruct a1 as [b1 s2]. inv. destruct a1 as [[[c k'] s3] bo]. destruct (is_ws_at b1 k').
  - inv. assert (T : token_in (TTagDirective (Borrowed (handle_str h)) c) b).
    { unfold token_in. cbn [token_texts]. apply two_in; [apply cow_in_borrowed, P|].
      eapply cow_in_trans; [eapply uri_in; eauto|]. eapply part_trans; [eapply eat_part; eauto|eapply skip_part; eauto]. }
    match type of H with Ok (?y, _, _) = _ => assert (t = y) as -> by congruence end.
    destruct bo; [exact T|apply owned_in, T].
  - destruct (is_empty _); discriminate.
Qed.
Lemma directive_in o b st k t b' st' : scan_directive o b st k = Ok (t, b', st') -> token_in t b.
Proof.
  unfold scan_directive. intros H. inv. destruct a as [b1 s1]. pose proof (eat_part _ _ _ _ _ _ E) as P. destruct k.
  - inv. destruct a as [v n]. inv. destruct a as [b2 s2]. inv. destruct b2 as [|x b2]; [discriminate|]. destruct (x =? 46)%N; [|discriminate].
    inv. destruct a0 as [b3 s3]. inv. destruct a0 as [v' n']. inv. destruct a0 as [b4 s4].
    assert (t = TVersionDirective v v') as -> by congruence. constructor.
  - inv. destruct a as [[tok n] s2]. inv. assert (t = tok) as -> by congruence.
    eapply part_all; [eapply tag_directive_in; eauto|exact P].
Qed.
Lemma anchor_in o b st al t b' st' : scan_anchor o b st al = Ok (t, b', st') -> token_in t b.
Proof.
  unfold scan_anchor. intros H. inv. destruct a as [b1 s1]. inv. inv. destruct a0 as [b2 s2].
  destruct (is_empty _); [discriminate|]. inv. destruct b2 as [|x b2]; [discriminate|]. destruct (anchor_follow x); [|discriminate].
  match type of H with Ok (?y, _, _) = _ => assert (t = y) as -> by congruence end.
  assert (P : part_of (firstn a b1) b) by (eapply part_trans; [apply part_firstn|eapply adv_part; eauto]).
  destruct al; repeat constructor; exact P.
Qed.
Lemma flow_eager_in o b st (single : bool) t n st' : scan_flow_scalar_eager o b st single = Ok (t, n, st') -> token_in t b.
Proof.
  unfold scan_flow_scalar_eager. intros H. inv. inv. inv. inv. inv. inv.
  match type of H with Ok (?y, _, _) = _ => assert (t = y) as -> by congruence end.
  unfold token_in. cbn [token_texts]. change (cow_in a2 b). destruct (f_bor a1); inv.
  - assert (a2 = Borrowed a5) as -> by congruence. apply cow_in_borrowed. eapply slice_part; eauto.
  - assert (a2 = Owned a5) as -> by congruence. apply cow_in_owned.
Qed.
Lemma flow_in o b st (single : bool) m n st' : scan_flow_scalar o b st single = Ok (m, n, st') -> maybe_in m b.
Proof.
  unfold scan_flow_scalar. destruct (lazy_mode o); intros H; inv; destruct a as [[x n1] s1]; match type of H with Ok (?y, _, _) = _ => assert (m = y) as -> by congruence end.
  - unfold scan_flow_scalar_lazy in E. inv. inv. inv. destruct a1 as [b1 s2]. inv.
    match type of E with Ok (?y, _, _) = _ => assert (x = y) as -> by congruence end. repeat constructor. eapply slice_part; eauto.
  - eapply flow_eager_in; eauto.
Qed.
Lemma plain_eager_in o b st i (bl : bool) t n st' : scan_plain_scalar_eager o b st i bl = Ok (t, n, st') -> token_in t b.
Proof.
  unfold scan_plain_scalar_eager. intros H. inv. destruct (_ && _); [discriminate|]. inv. inv. inv.
  match type of H with Ok (?y, _, _) = _ => assert (t = y) as -> by congruence end.
  unfold token_in. cbn [token_texts]. change (cow_in a2 b). destruct (f_bor (p_f a0)); inv.
  - assert (a2 = Borrowed a3) as -> by congruence. apply cow_in_borrowed. eapply slice_part; eauto.
  - assert (a2 = Owned a3) as -> by congruence. apply cow_in_owned.
Qed.
Lemma plain_in o b st c m n st' : scan_plain_scalar o b st c = Ok (m, n, st') -> maybe_in m b.
Proof.
  unfold scan_plain_scalar. destruct (lazy_mode o); intros H; inv; destruct a as [[x n1] s1]; match type of H with Ok (?y, _, _) = _ => assert (m = y) as -> by congruence end.
  - unfold scan_plain_scalar_lazy in E. inv. destruct a as [l2 s2]. inv.
    match type of E with Ok (?y, _, _) = _ => assert (x = y) as -> by congruence end. repeat constructor. eapply slice_part; eauto.
  - eapply plain_eager_in; eauto.
Qed.
Lemma chomp_in b scr bo y i j l c : scan_chomp b scr bo y i j l = Ok c -> cow_in c b.
Proof.
  unfold scan_chomp. cbv zeta.
  assert (K : forall s, @bind scan_error _ _ (utf8_unwrap s) (fun t => Ok (Owned t)) = Ok c -> cow_in c b).
  { intros s Q. inv. assert (c = Owned a) as -> by congruence. apply cow_in_owned. }
  destruct bo; [|apply K]. destruct y.
  - intros H. inv. inv. assert (c = Borrowed a0) as -> by congruence. apply cow_in_borrowed. eapply slice_part; eauto.
  - intros H. inv. assert (c = Borrowed a) as -> by congruence. apply cow_in_borrowed. eapply slice_part; eauto.
  - destruct l as [|[|l]].
    + intros H. inv. assert (c = Borrowed a) as -> by congruence. apply cow_in_borrowed. eapply slice_part; eauto.
    + intros H. inv. assert (c = Borrowed a) as -> by congruence. apply cow_in_borrowed. eapply slice_part; eauto.
    + intros H. inv. eapply K; eauto.
Qed.
Lemma block_eager_in o b st i (fold : bool) t n st' : scan_block_scalar_eager o b st i fold = Ok (t, n, st') -> token_in t b.
Proof.
  unfold scan_block_scalar_eager. intros H. inv. destruct a as [[[ch ex] b1] s1]. inv. destruct a as [[[[ind b2] s2] ln] bo].
  destruct (if bo then _ else _) as [z scr]. inv. inv.
  match type of H with Ok (?y, _, _) = _ => assert (t = y) as -> by congruence end.
  unfold token_in. cbn [token_texts]. change (cow_in a0 b). eapply chomp_in; eauto.
Qed.
Lemma block_in o b st c (fold : bool) m n st' : scan_block_scalar o b st c fold = Ok (m, n, st') -> maybe_in m b.
Proof.
  unfold scan_block_scalar. destruct (lazy_mode o); intros H; inv; destruct a as [[x n1] s1]; match type of H with Ok (?y, _, _) = _ => assert (m = y) as -> by congruence end.
  - unfold scan_block_scalar_lazy in E. inv. destruct a as [[[ch ex] b1] s2]. inv. destruct a as [[ind b2] s3]. inv. destruct a as [b3 s4]. inv.
    match type of E with Ok (?y, _, _) = _ => assert (x = y) as -> by congruence end. repeat constructor. eapply slice_part; eauto.
  - eapply block_eager_in; eauto.
Qed.
Lemma eval_in d t : eval_deferred d = Ok t -> token_in t (deferred_text d).
Proof.
  destruct d; cbn; intros H; inv; destruct a as [[x n1] s1]; assert (t = x) as -> by congruence;
    [eapply flow_eager_in|eapply plain_eager_in|eapply block_eager_in]; eauto.
Qed.

(** ** Rounds *)
Section Held.
  Variable base : str.
  Variable P : entry -> Prop.
  Hypothesis PB : forall e, Forall (fun y => part_of y base) (entry_texts e) -> P e.
  Definition held (q : tokens) : Prop := Forall P (map snd (q_heap q)).
  Definition safe {A} (m : M A) : Prop := forall s, part_of (m_buf s) base -> held (m_q s) ->
    part_of (m_buf (fst (m s))) base /\ held (m_q (fst (m s))).
  Lemma safe_bind {A B} (m : M A) (k : A -> M B) : safe m -> (forall a, safe (k a)) -> safe (mbind m k).
  Proof.
    intros H K s I HQ. unfold mbind. specialize (H s I HQ). destruct (m s) as [s1 [a|e| |]]; cbn [fst] in *; auto. apply K; apply H.
  Qed.
  Lemma safe_get {A} (k : scanner -> M A) : (forall sc, safe (k sc)) -> safe (mbind get_sc k).
  Proof. intros H s I Q. apply H; assumption. Qed.
  Lemma safe_buf {A} (k : str -> M A) : (forall b, part_of b base -> safe (k b)) -> safe (mbind get_buf k).
  Proof. intros H s I Q. apply H; assumption. Qed.
  Lemma safe_lift {A} (r : sres A) : safe (mlift r). Proof. intros s I Q. auto. Qed.
  Lemma safe_liftk {A B} (r : sres A) (k : A -> M B) : (forall a, r = Ok a -> safe (k a)) -> safe (mbind (mlift r) k).
  Proof. intros H s I Q. unfold mbind, mlift. destruct r; auto. apply (H a eq_refl s I Q). Qed.
  Lemma safe_ret {A} (a : A) : safe (mret a). Proof. intros s I Q. auto. Qed.
  Lemma safe_upd f : safe (upd f). Proof. intros s I Q. auto. Qed.
  Lemma safe_enqueue x r : maybe_in x base -> safe (enqueue x r).
  Proof.
    intros H s I Q. cbn. split; [exact I|]. unfold held in *. cbn. rewrite map_app. apply Forall_app. split; [exact Q|].
    repeat constructor. apply PB. exact H.
  Qed.
  Lemma safe_here x : maybe_in x base -> safe (enqueue_here x).
  Proof. intros H. unfold enqueue_here. apply safe_get. intros sc. apply safe_enqueue, H. Qed.
  Lemma safe_plain x : token_texts x = [] -> maybe_in (Tok x) base.
  Proof. intros H. unfold maybe_in, entry_texts. cbn [e_wrap]. rewrite H. constructor. Qed.
  Lemma safe_advance n : safe (advance n).
  Proof.
    unfold advance. apply safe_buf. intros b I. apply safe_liftk. intros b' Q s _ HQ. cbn. split; [|exact HQ].
    eapply part_trans; [eapply skip_part; eauto|exact I].
  Qed.
  Ltac safes :=
    repeat first
      [ assumption | apply safe_advance | apply safe_lift | apply safe_ret | apply safe_upd
      | apply safe_here, safe_plain; reflexivity
      | apply safe_enqueue, safe_plain; reflexivity
      | apply safe_get; intros ?
      | apply safe_buf; intros ? ?
      | apply safe_liftk; intros ? ?
      | apply safe_bind; [|intros ?]
      | match goal with |- safe (if ?c then _ else _) => destruct c end
      | match goal with |- safe (match ?c with _ => _ end) => destruct c end ].
  Lemma safe_ends n k : safe (enqueue_ends n k). Proof. induction n; cbn [enqueue_ends]; safes. Qed.
  Lemma safe_unroll c : safe (unroll_indent c).
  Proof.
    unfold unroll_indent. apply safe_get. intros sc. destruct (is_block (sc_cxt sc)); [|safes].
    destruct (indent_decrement (sc_cxt sc) c). apply safe_bind; [safes|intros _; apply safe_ends].
  Qed.
  Lemma safe_pop : safe pop_zero_indent_sequence.
  Proof.
    unfold pop_zero_indent_sequence. apply safe_get. intros sc. apply safe_buf. intros b I.
    destruct (c_indents (sc_cxt sc)); [safes|]. match goal with |- context [if ?c then _ else _] => destruct c end; [|safes].
    destruct (pop_indent (sc_cxt sc)). apply safe_bind; [safes|intros _; apply safe_ends].
  Qed.
  Lemma safe_roll a b c (m : bool) : safe (roll_indent a b c m).
  Proof.
    unfold roll_indent. cbv zeta. apply safe_get. intros sc.
    assert (maybe_in (Tok (if m then TBlockMappingStart else TBlockSequenceStart)) base) as T by (destruct m; apply safe_plain; reflexivity).
    repeat first [apply safe_ret|apply safe_upd|apply safe_enqueue; exact T|apply safe_bind; [|intros ?]
      | match goal with |- safe (if ?c then _ else _) => destruct c end
      | match goal with |- safe (match ?c with _ => _ end) => destruct c end].
  Qed.
  Lemma safe_expire : safe expire_stale_saved_key. Proof. unfold expire_stale_saved_key. safes. Qed.
  Lemma safe_remove : safe remove_saved_key. Proof. unfold remove_saved_key. safes. Qed.
  Lemma safe_save r : safe (save_key r). Proof. unfold save_key. cbv zeta. pose proof safe_remove. safes. Qed.
  Lemma safe_eat o : safe (sc_eat_whitespace o). Proof. unfold sc_eat_whitespace, add_st. safes. Qed.
  Lemma safe_start : safe fetch_stream_start. Proof. unfold fetch_stream_start. safes. Qed.
  Lemma safe_finish : safe fetch_stream_end.
  Proof. unfold fetch_stream_end. pose proof (safe_unroll None). pose proof safe_remove. safes. Qed.
  Ltac safey :=
    repeat first
      [ apply safe_unroll | apply safe_roll | apply safe_remove | apply safe_save
      | assumption | apply safe_advance | apply safe_lift | apply safe_ret | apply safe_upd
      | apply safe_here, safe_plain; reflexivity
      | apply safe_enqueue, safe_plain; reflexivity
      | apply safe_get; intros ?
      | apply safe_buf; intros ? ?
      | apply safe_bind; [|intros ?]
      | match goal with |- safe (if ?c then _ else _) => destruct c end
      | match goal with |- safe (match ?c with _ => _ end) => destruct c end ].
  Lemma held_in x b : maybe_in x b -> part_of b base -> maybe_in x base.
  Proof. intros H I. eapply part_all; eauto. Qed.
  Ltac leafy F := repeat first [ apply safe_here; eapply held_in; [solve [eapply F; eauto]|assumption] | progress safey ].

  Lemma safe_dispatch o : safe (dispatch o).
  Proof.
    unfold dispatch. apply safe_buf. intros b I. apply safe_get. intros sc. cbv zeta.
    repeat match goal with |- safe (if ?c then _ else _) => destruct c end.
    - unfold fetch_directive, add_st. apply safe_buf. intros b1 I1. destruct (negb _); [safey|].
      apply safe_bind; [safey|intros _]. apply safe_liftk. intros body _. apply safe_liftk. intros k _. apply safe_liftk. intros [b2 d2] Q2.
      apply safe_liftk. intros [[tok b3] d3] Q3.
      assert (T : maybe_in (Tok tok) base).
      { eapply part_all; [eapply directive_in; eauto|]. eapply part_trans; [eapply adv_part; eauto|exact I1]. }
      pose proof (safe_here _ T). safey.
    - unfold fetch_document_marker, advance_st. apply safe_bind; [safey|intros _]. apply safe_bind; [safey|intros _].
      apply safe_bind; [safey|intros _]. apply safe_bind; [safey|intros _]. destruct (at_is b 0 45); safey.
    - unfold fetch_flow_collection_start, advance_st. destruct (at_is b 0 123); safey.
    - unfold fetch_flow_collection_end, advance_st. destruct (at_is b 0 125); safey.
    - unfold fetch_flow_collection_entry, advance_st. safey.
    - unfold fetch_block_collection_entry, advance_st. cbv zeta. safey.
    - unfold fetch_explicit_key, advance_st. cbv zeta. safey.
    - unfold fetch_value, advance_st. cbv zeta. safey.
    - unfold fetch_anchor, add_st. apply safe_buf. intros b1 I1. destruct (_ || _); [|safey].
      apply safe_liftk. intros [[tok b3] d3] Q3.
      assert (T : maybe_in (Tok tok) base) by (eapply part_all; [eapply anchor_in; eauto|exact I1]).
      pose proof (safe_here _ T). safey.
    - unfold fetch_tag, add_st. apply safe_buf. intros b1 I1. destruct (negb _); [safey|].
      apply safe_liftk. intros [[tok b3] d3] Q3.
      assert (T : maybe_in (Tok tok) base) by (eapply part_all; [eapply tag_in; eauto|exact I1]).
      pose proof (safe_here _ T). safey.
    - unfold fetch_block_scalar. apply safe_buf. intros b1 I1. apply safe_get. intros sc1.
      apply safe_bind; [safey|intros _]. apply safe_bind; [safey|intros _].
      apply safe_liftk. intros [[tok b3] d3] Q3.
      assert (T : maybe_in tok base) by (eapply part_all; [eapply block_in; eauto|exact I1]).
      pose proof (safe_here _ T). safey.
    - unfold fetch_flow_scalar, add_st. apply safe_buf. intros b1 I1. destruct (_ || _); [|safey].
      apply safe_liftk. intros [[tok b3] d3] Q3.
      assert (T : maybe_in tok base) by (eapply part_all; [eapply flow_in; eauto|exact I1]).
      pose proof (safe_here _ T). safey.
    - unfold fetch_plain_scalar. apply safe_buf. intros b1 I1. apply safe_get. intros sc1.
      apply safe_liftk. intros [[tok b3] d3] Q3.
      assert (T : maybe_in tok base) by (eapply part_all; [eapply plain_in; eauto|exact I1]).
      pose proof (safe_here _ T). safey.
    - safey.
  Qed.
  Lemma safe_round o : safe (scan_next_token o).
  Proof.
    unfold scan_next_token. apply safe_get. intros sc.
    assert (safe (sc_eat_whitespace o ;; expire_stale_saved_key ;;
        do sc <- get_sc; unroll_indent (Some (scol (sc_st sc))) ;; pop_zero_indent_sequence ;;
        do b <- get_buf; do sc <- get_sc;
        if is_empty b || match sc_state sc with SDone => true | _ => false end
        then fetch_stream_end else mlift (cache o b 4) ;; dispatch o)) as H.
    { apply safe_bind; [apply safe_eat|intros _]. apply safe_bind; [apply safe_expire|intros _].
      apply safe_get. intros sc1. apply safe_bind; [apply safe_unroll|intros _]. apply safe_bind; [apply safe_pop|intros _].
      apply safe_buf. intros b I. apply safe_get. intros sc2.
      match goal with |- context [if ?c then _ else _] => destruct c end; [apply safe_finish|].
      apply safe_bind; [safey|intros _; apply safe_dispatch]. }
    destruct (sc_state sc); [apply safe_start|exact H|exact H].
  Qed.
End Held.

(** ** The loop of the scanner, whatever the flags *)
Definition footing (H : str) (sc : scanner) : Prop := exists b, get_from H (sc_offset sc) = Some b.
Lemma get_part H n b : get_from H n = Some b -> b = skipn n H /\ n <= List.length H.
Proof.
  unfold get_from. destruct (is_boundary H n) eqn:B; [|discriminate]. intros Q. split; [congruence|]. apply boundary_le, B.
Qed.
Lemma get_valid H n b : valid H -> get_from H n = Some b -> valid b.
Proof.
  unfold get_from. destruct (is_boundary H n) eqn:B; [|discriminate]. intros V Q. assert (b = skipn n H) as -> by congruence.
  apply valid_skipn; assumption.
Qed.
Lemma loop_held o H (P : entry -> Prop) start : (forall e, Forall (fun y => part_of y H) (entry_texts e) -> P e) -> valid H ->
  forall fuel sc q b, get_from H (sc_offset sc) = Some b -> left_to_do b sc < fuel -> held P q ->
  let '(sc', q', r) := scan_loop fuel o H start sc q in
  r <> Fuel /\ (r = Err Extend -> extendable o = true) /\ held P q' /\
  exists b', get_from H (sc_offset sc') = Some b' /\ suffix_of b b'.
Proof.
  intros PB VH. induction fuel as [|fuel IH]; intros sc q b G L HQ; [lia|]. cbn [scan_loop].
  destruct (want_more start sc q) eqn:W.
  2:{ split; [discriminate|]. split; [discriminate|]. split; [exact HQ|]. exists b. split; [exact G|apply suffix_refl]. }
  unfold scan_round. rewrite G. destruct (scan_next_token o (mkMs b sc q)) as [s1 r] eqn:Q.
  pose proof (more_live _ _ _ W) as ND. pose proof (get_valid _ _ _ VH G) as V.
  destruct (round_facts o (mkMs b sc q) s1 r V ND Q) as (SF & RO & KZ & LQ & NF & OKF & EXF). cbn [m_buf m_sc m_q] in *.
  assert (PH : part_of b H) by (destruct (get_part _ _ _ G) as (-> & _); apply part_skipn).
  destruct (safe_round H P PB o (mkMs b sc q) PH HQ) as (_ & HQ1). rewrite Q in HQ1. cbn [fst] in HQ1.
  destruct r as [[]|e| |].
  - specialize (OKF eq_refl). set (sc1 := set_offset (List.length H - List.length (m_buf s1)) (m_sc s1)).
    specialize (IH sc1 (m_q s1) (m_buf s1)).
    destruct (scan_loop fuel o H start sc1 (m_q s1)) as [[sc' q'] r'].
    destruct IH as (A & B & C & b' & G' & S').
    { cbn. eapply stand_on; eauto. } { unfold left_to_do in *. cbn in *. lia. } { exact HQ1. }
    split; [exact A|]. split; [exact B|]. split; [exact C|]. exists b'. split; [exact G'|eapply suffix_trans; eauto].
  - split; [discriminate|]. split; [intros Q1; assert (e = Extend) as -> by congruence; apply EXF; reflexivity|]. split; [exact HQ1|].
    assert (D : (exists b', get_from H (sc_offset (m_sc s1)) = Some b' /\ suffix_of b b')).
    { exists b. split; [rewrite RO; exact G|apply suffix_refl]. }
    destruct e; try exact D. exists (m_buf s1). split; [|exact SF]. cbn. eapply stand_on; eauto.
  - split; [discriminate|]. split; [discriminate|]. split; [exact HQ1|]. exists b. split; [rewrite RO; exact G|apply suffix_refl].
  - congruence.
Qed.
Lemma tokens_held o H (P : entry -> Prop) sc q b : (forall e, Forall (fun y => part_of y H) (entry_texts e) -> P e) -> valid H ->
  get_from H (sc_offset sc) = Some b -> held P q ->
  let '(sc', q', r) := scan_tokens o H sc q in
  r <> Fuel /\ (r = Err Extend -> extendable o = true) /\ held P q' /\
  exists b', get_from H (sc_offset sc') = Some b' /\ suffix_of b b'.
Proof.
  intros PB V G HQ. unfold scan_tokens. apply (loop_held o H P (q_len q) PB V _ sc q b G); [|exact HQ].
  destruct (get_part _ _ _ G) as (-> & _). unfold left_to_do. rewrite skipn_length. lia.
Qed.

(** ** Reading from the source *)
Lemma read_data_bytes b : forall cap t rest c, read_data cap b = (t, rest, c) -> b = t ++ rest /\ (cap <> 0%N -> b <> [] -> t <> []).
Proof.
  induction b as [|x b IH]; intros cap t rest c Q; cbn [read_data] in Q.
  { assert (t = [] /\ rest = []) as (-> & ->) by (split; congruence). auto. }
  destruct (cap =? 0)%N eqn:C0.
  { assert (t = [] /\ rest = x :: b) as (-> & ->) by (split; congruence). split; [reflexivity|]. lia. }
  destruct (read_data (cap - 1) b) as [[t1 r1] c1] eqn:R. destruct (IH _ _ _ _ R) as (E & _).
  assert (t = x :: t1 /\ rest = r1) as (-> & ->) by (split; congruence). split; [cbn; congruence|discriminate].
Qed.
Lemma size_cons i src : src_size (i :: src) = match i with Data b => S (List.length b) + src_size src | IoErr => S (src_size src) end.
Proof. reflexivity. Qed.
Lemma bytes_cons i src : bytes_of (i :: src) = (match i with Data b => b | IoErr => [] end) ++ bytes_of src.
Proof. reflexivity. Qed.
Lemma read_upto_eq cap src : read_upto cap src =
  if (cap =? 0)%N then ([], src, false)
  else match src with
    | [] => ([], [], false) | IoErr :: r => ([], r, true) | Data [] :: r => ([], r, false)
    | Data b :: r => match read_data cap b with
        | (t, [], c) => let '(t', r', e) := read_upto c r in (t ++ t', r', e)
        | (t, rest, _) => (t, Data rest :: r, false) end
    end.
Proof. destruct src; reflexivity. Qed.
Lemma read_upto_any : forall src cap t src' e, read_upto cap src = (t, src', e) ->
  src_size src' <= src_size src /\ (t <> [] -> src_size src' < src_size src) /\ (e = false -> bytes_of src = t ++ bytes_of src').
Proof.
  induction src as [|i src IH]; intros cap t src' e Q; rewrite read_upto_eq in Q.
  { assert (t = [] /\ src' = []) as (-> & ->) by (destruct (cap =? 0)%N; split; congruence). split; [lia|]. split; [congruence|reflexivity]. }
  destruct (cap =? 0)%N eqn:C0.
  { assert (t = [] /\ src' = i :: src) as (-> & ->) by (split; congruence). split; [lia|]. split; [congruence|reflexivity]. }
  destruct i as [[|x b]|].
  - assert (t = [] /\ src' = src) as (-> & ->) by (split; congruence). rewrite size_cons, bytes_cons. split; [lia|]. split; [congruence|reflexivity].
  - destruct (read_data cap (x :: b)) as [[t1 rest] c] eqn:RD. destruct (read_data_bytes _ _ _ _ _ RD) as (E & NE).
    specialize (NE ltac:(lia) ltac:(discriminate)). rewrite size_cons, bytes_cons. rewrite E, app_length. destruct rest as [|y rest].
    + destruct (read_upto c src) as [[t2 s2] e2] eqn:RU. destruct (IH _ _ _ _ RU) as (A & B & C).
      assert (t = t1 ++ t2 /\ src' = s2 /\ e = e2) as (-> & -> & ->) by (repeat split; congruence).
      split; [lia|]. split; [lia|]. intros Q2. rewrite (C Q2), app_nil_r, app_assoc. reflexivity.
    + assert (t = t1 /\ src' = Data (y :: rest) :: src) as (-> & ->) by (split; congruence).
      rewrite size_cons, bytes_cons. destruct t1; [congruence|]. cbn [List.length] in *.
      split; [lia|]. split; [lia|]. intros _. rewrite <- app_assoc. reflexivity.
  - assert (t = [] /\ src' = src /\ e = true) as (-> & -> & ->) by (repeat split; congruence). rewrite size_cons. split; [lia|]. split; [congruence|discriminate].
Qed.

(** ** Driving the scanner *)
Definition kept (bs : list str) (e : entry) : Prop :=
  exists b, In b bs /\ Forall (fun y => part_of y b) (entry_texts e).
Lemma kept_more bs bs' e : kept bs e -> kept (bs ++ bs') e.
Proof. intros (b & I & F). exists b. split; [apply in_or_app; auto|exact F]. Qed.
Definition shelf (w : owned) : list str := o_tail w ++ [o_head w].
Definition ahead (w : owned) (sc : scanner) : str := skipn (sc_offset sc) (o_head w) ++ bytes_of (o_src w).

Lemma suffix_drop H n b m b' : get_from H n = Some b -> get_from H m = Some b' -> suffix_of b b' ->
  exists d, skipn n H = d ++ skipn m H.
Proof.
  intros G G' (k & E & _). destruct (get_part _ _ _ G) as (<- & _). destruct (get_part _ _ _ G') as (<- & _).
  exists (firstn k b). rewrite E. symmetry. apply firstn_skipn.
Qed.
Lemma drive_held opts : forall fuel w sc q,
  valid (o_head w) -> footing (o_head w) sc -> held (kept (shelf w)) q ->
  (if o_exhausted w then 1 else S (src_size (o_src w))) <= fuel ->
  let '(w', sc', q', x) := drive_owned fuel opts w sc q in
  x <> Fuel /\ valid (o_head w') /\ footing (o_head w') sc' /\ held (kept (shelf w')) q' /\
  (exists new, shelf w' = shelf w ++ new) /\
  (x <> Err RIo -> x <> Err RUtf8 -> exists d, ahead w sc = d ++ ahead w' sc').
Proof.
  induction fuel as [|fuel IH]; intros w sc q V (b & G) HQ L; [destruct (o_exhausted w); lia|]. cbn [drive_owned].
  set (o := mkFlags (negb (o_exhausted w)) (lazy_mode opts)).
  pose proof (tokens_held o (o_head w) (kept (shelf w)) sc q b) as T.
  destruct (scan_tokens o (o_head w) sc q) as [[sc1 q1] r].
  destruct T as (NF & EX & H1 & b1 & G1 & S1); auto.
  { intros e F. exists (o_head w). split; [apply in_or_app; right; left; reflexivity|exact F]. }
  destruct (suffix_drop _ _ _ _ _ G G1 S1) as (d & D).
  assert (STOP : forall x : rres unit, x <> Fuel ->
    x <> Fuel /\ valid (o_head w) /\ footing (o_head w) sc1 /\ held (kept (shelf w)) q1 /\
    (exists new, shelf w = shelf w ++ new) /\
    (x <> Err RIo -> x <> Err RUtf8 -> exists d, ahead w sc = d ++ ahead w sc1)).
  { intros x NX. split; [exact NX|]. split; [exact V|]. split; [exists b1; exact G1|]. split; [exact H1|].
    split; [exists []; rewrite app_nil_r; reflexivity|]. intros _ _. exists d. unfold ahead. rewrite D, <- app_assoc. reflexivity. }
  destruct r as [[]|e| |]; [apply STOP; discriminate| |apply STOP; discriminate|congruence].
  assert (DEC : e = Extend \/ e <> Extend) by (destruct e; auto; right; discriminate). destruct DEC as [->|NX].
  2:{ destruct e; try congruence; apply STOP; discriminate. }
  specialize (EX eq_refl). cbn in EX. assert (o_exhausted w = false) as XF by (destruct (o_exhausted w); [discriminate|reflexivity]).
  rewrite XF in L. destruct (get_part _ _ _ G1) as (E1 & L1).
  unfold refresh_buffer. replace (Nat.leb (sc_offset sc1) (List.length (o_head w))) with true by lia.
  destruct (read_upto (chunk_cap (List.length (o_tail w)) (sc_offset sc1)) (o_src w)) as [[t src'] er] eqn:RU.
  destruct (read_upto_any _ _ _ _ _ RU) as (LS & LT & BY).
  assert (FAIL : forall w', o_head w' = o_head w -> o_tail w' = o_tail w -> forall x : rres unit, x = Err RIo \/ x = Err RUtf8 ->
    x <> Fuel /\ valid (o_head w') /\ footing (o_head w') sc1 /\ held (kept (shelf w')) q1 /\
    (exists new, shelf w' = shelf w ++ new) /\
    (x <> Err RIo -> x <> Err RUtf8 -> exists d, ahead w sc = d ++ ahead w' sc1)).
  { intros w' Hh Ht x X. assert (shelf w' = shelf w) as SH by (unfold shelf; rewrite Hh, Ht; reflexivity).
    split; [destruct X; congruence|]. rewrite Hh, SH. split; [exact V|]. split; [exists b1; exact G1|]. split; [exact H1|].
    split; [exists []; rewrite app_nil_r; reflexivity|]. intros N1 N2. destruct X; congruence. }
  destruct er; [apply FAIL; auto|].
  destruct (valid_utf8 (skipn (sc_offset sc1) (o_head w) ++ t)) eqn:VU; [|apply FAIL; auto].
  set (w' := mkOwned (skipn (sc_offset sc1) (o_head w) ++ t) (o_tail w ++ [o_head w]) src' (is_empty t)).
  specialize (IH w' (set_offset 0 sc1) q1 VU).
  destruct (drive_owned fuel opts w' (set_offset 0 sc1) q1) as [[[w2 sc2] q2] x].
  destruct IH as (A & B & C & E & (new & F) & I).
  { exists (o_head w'). reflexivity. }
  { eapply Forall_impl; [|exact H1]. intros y Y. unfold w', shelf. cbn [o_head o_tail]. apply kept_more. exact Y. }
  { pose proof (size_rest (o_src w)) as SP. cbn [w' o_exhausted o_src]. destruct t; cbn [is_empty]; [lia|]. specialize (LT ltac:(discriminate)). lia. }
  split; [exact A|]. split; [exact B|]. split; [exact C|]. split; [exact E|].
  split; [exists ([o_head w'] ++ new); rewrite F; unfold shelf; cbn [w' o_tail o_head]; rewrite <- !app_assoc; reflexivity|].
  intros N1 N2. destruct (I N1 N2) as (d2 & D2). exists (d ++ d2). rewrite <- app_assoc, <- D2.
  unfold ahead. cbn [w' o_head o_src set_offset sc_offset skipn]. rewrite D, (BY eq_refl), <- !app_assoc. reflexivity.
Qed.

(** ** Readers *)
Definition well (r : reader) : Prop :=
  held (kept (buffers r)) (r_q r) /\
  match r_in r with
  | Borrow t => valid t /\ footing t (r_sc r)
  | Own w => valid (o_head w) /\ footing (o_head w) (r_sc r)
  end.

Lemma scan_well r r' x : reader_scan r = (r', x) -> well r ->
  well r' /\ x <> Fuel /\ (exists new, buffers r' = buffers r ++ new) /\
  (x <> Err RIo -> x <> Err RUtf8 -> exists d, unread r = d ++ unread r').
Proof.
  intros Q (HQ & W). unfold reader_scan in Q. destruct (r_in r) as [t|w] eqn:RI.
  - destruct W as (V & b & G). cbn [drive] in Q.
    pose proof (tokens_held (no_extend (r_opts r)) t (kept (buffers r)) (r_sc r) (r_q r) b) as T.
    destruct (scan_tokens (no_extend (r_opts r)) t (r_sc r) (r_q r)) as [[sc1 q1] y].
    destruct T as (NF & EX & H1 & b1 & G1 & S1); auto.
    { intros e F. exists t. split; [unfold buffers; rewrite RI; left; reflexivity|exact F]. }
    match type of Q with (?m, ?z) = _ => assert (r' = m) as -> by congruence; assert (x = z) as -> by congruence end.
    destruct (suffix_drop _ _ _ _ _ G G1 S1) as (d & D).
    unfold well, buffers, unread in *. rewrite RI in *. cbn [r_in r_q r_sc].
    split; [split; [exact H1|]; split; [exact V|]; exists b1; exact G1|].
    split; [destruct y; cbn; congruence|]. split; [exists []; reflexivity|]. intros _ _. exists d. exact D.
  - destruct W as (V & F). cbn [drive] in Q.
    pose proof (drive_held (r_opts r) (S (S (src_size (o_src w)))) w (r_sc r) (r_q r) V F) as T.
    destruct (drive_owned (S (S (src_size (o_src w)))) (r_opts r) w (r_sc r) (r_q r)) as [[[w1 sc1] q1] y].
    match type of Q with (?m, ?z) = _ => assert (r' = m) as -> by congruence; assert (x = z) as -> by congruence end.
    unfold well, buffers, unread in *. rewrite RI in *. cbn [r_in r_q r_sc].
    destruct T as (A & B & C & D & E & I); [exact HQ|destruct (o_exhausted w); lia|].
    split; [split; [exact D|]; split; [exact B|exact C]|]. split; [exact A|]. split; [exact E|exact I].
Qed.

Lemma extract_perm : forall h x m r, extract entry entry_cmp x h = (m, r) -> Permutation (x :: h) (m :: r).
Proof.
  induction h as [|y h IH]; cbn [extract]; intros x m r E.
  - assert (m = x /\ r = []) as (-> & ->) by (split; congruence). reflexivity.
  - destruct (extract entry entry_cmp y h) as [m1 r1] eqn:E1. specialize (IH _ _ _ E1).
    destruct (q_lt entry entry_cmp m1 x).
    + assert (m = m1 /\ r = x :: r1) as (-> & ->) by (split; congruence). rewrite IH. apply perm_swap.
    + assert (m = x /\ r = y :: h) as (-> & ->) by (split; congruence). reflexivity.
Qed.
Lemma pop_held (P : entry -> Prop) q e q' : q_pop entry_cmp q = (e, q') -> held P q -> held P q' /\ match e with Some y => P y | None => True end.
Proof.
  unfold q_pop, held. destruct (q_heap q) as [|x h] eqn:HH; intros Q F.
  - assert (e = None /\ q' = q) as (-> & ->) by (split; congruence). rewrite HH. auto.
  - destruct (extract entry entry_cmp x h) as [m r] eqn:E. pose proof (extract_perm _ _ _ _ E) as PE.
    assert (e = Some (snd m) /\ q' = mkQueue r (q_inc q)) as (-> & ->) by (split; congruence). cbn [q_heap].
    apply (Permutation_map snd) in PE. cbn [map] in PE. pose proof (Permutation_Forall PE F) as F2. inversion F2; auto.
Qed.

Lemma serve_well : forall s r l r', serves r s = (l, r') -> well r ->
  well r' /\ ~ In (Scanned Fuel) l /\ (exists new, buffers r' = buffers r ++ new) /\
  (lossless l -> exists d, unread r = d ++ unread r') /\
  (forall e, In (Given (Some e)) l -> kept (buffers r') e).
Proof.
  induction s as [|[] s IH]; intros r l r' Q W; cbn [serves] in Q.
  - assert (l = [] /\ r' = r) as (-> & ->) by (split; congruence).
    split; [exact W|]. split; [intros []|]. split; [exists []; rewrite app_nil_r; reflexivity|].
    split; [intros _; exists []; reflexivity|intros e []].
  - destruct (reader_scan r) as [r1 x] eqn:RS. destruct (scan_well _ _ _ RS W) as (W1 & NF & (n1 & B1) & U1).
    assert (GO : forall x0 : rres unit, x0 = x -> (let (l, r) := serves r1 s in (Scanned x0 :: l, r)) = (l, r') ->
      well r' /\ ~ In (Scanned Fuel) l /\ (exists new, buffers r' = buffers r ++ new) /\
      (lossless l -> exists d, unread r = d ++ unread r') /\
      (forall e, In (Given (Some e)) l -> kept (buffers r') e)).
    { intros x0 -> Q1. destruct (serves r1 s) as [l1 r2] eqn:SE. destruct (IH _ _ _ SE W1) as (A & B & (n2 & C) & D & E).
      assert (l = Scanned x :: l1 /\ r' = r2) as (-> & ->) by (split; congruence).
      split; [exact A|]. split; [intros [Z|Z]; [congruence|auto]|].
      split; [exists (n1 ++ n2); rewrite C, B1, app_assoc; reflexivity|]. split.
      - intros (N1 & N2). destruct U1 as (d1 & D1).
        { intros ->. apply N1. left. reflexivity. } { intros ->. apply N2. left. reflexivity. }
        destruct D as (d2 & D2). { split; intros I; [apply N1|apply N2]; right; exact I. }
        exists (d1 ++ d2). rewrite D1, D2, app_assoc. reflexivity.
      - intros e [Z|Z]; [discriminate|auto]. }
    destruct x as [[]|e| |]; [apply (GO _ eq_refl Q)|apply (GO _ eq_refl Q)| |congruence].
    assert (l = [Scanned Panic] /\ r' = r1) as (-> & ->) by (split; congruence).
    split; [exact W1|]. split; [intros [Z|[]]; discriminate|]. split; [exists n1; exact B1|].
    split; [intros _; apply U1; discriminate|intros e [Z|[]]; discriminate].
  - destruct (q_pop entry_cmp (r_q r)) as [e q] eqn:PQ. destruct W as (HQ & W).
    destruct (pop_held _ _ _ _ PQ HQ) as (HQ' & HE).
    set (r1 := mkReader (r_sc r) q (r_opts r) (r_exhausted r) (r_in r)) in *.
    destruct (serves r1 s) as [l1 r2] eqn:SE. destruct (IH _ _ _ SE) as (A & B & (n2 & C) & D & E).
    { split; [exact HQ'|exact W]. }
    assert (l = Given e :: l1 /\ r' = r2) as (-> & ->) by (split; congruence).
    split; [exact A|]. split; [intros [Z|Z]; [discriminate|auto]|]. split; [exists n2; exact C|]. split.
    + intros (N1 & N2). apply D. split; intros I; [apply N1|apply N2]; right; exact I.
    + intros y [Z|Z]; [|auto]. assert (e = Some y) as -> by congruence. rewrite C. apply kept_more. exact HE.
Qed.
Lemma well_pour src o : well (pour src o).
Proof. split; [constructor|]. split; [reflexivity|]. exists []. reflexivity. Qed.
Lemma well_open t o : valid t -> well (open t o).
Proof. intros V. split; [constructor|]. split; [exact V|]. exists t. reflexivity. Qed.
Lemma serve_app : forall s1 s2 r l r', serves r (s1 ++ s2) = (l, r') ->
  exists l1 r1, serves r s1 = (l1, r1) /\ (l = l1 /\ r' = r1 \/ exists l2, serves r1 s2 = (l2, r') /\ l = l1 ++ l2).
Proof.
  induction s1 as [|[] s1 IH]; intros s2 r l r' Q; cbn [serves app] in *.
  - exists [], r. split; [reflexivity|]. right. exists l. auto.
  - destruct (reader_scan r) as [r1 x].
    assert (GO : forall x0 : rres unit, (let (l, r) := serves r1 (s1 ++ s2) in (Scanned x0 :: l, r)) = (l, r') ->
      exists l1 r2, (let (l, r) := serves r1 s1 in (Scanned x0 :: l, r)) = (l1, r2) /\ (l = l1 /\ r' = r2 \/ exists l2, serves r2 s2 = (l2, r') /\ l = l1 ++ l2)).
    { intros x0 Q0. destruct (serves r1 (s1 ++ s2)) as [la ra] eqn:SE. destruct (IH _ _ _ _ SE) as (l1 & r2 & E & H).
      rewrite E. exists (Scanned x0 :: l1), r2. split; [reflexivity|].
      assert (l = Scanned x0 :: la /\ r' = ra) as (-> & ->) by (split; congruence).
      destruct H as [(-> & ->)|(l2 & H & ->)]; [left; auto|right; exists l2; auto]. }
    destruct x as [[]|e| |]; [apply GO, Q|apply GO, Q| |]; do 2 eexists; (split; [reflexivity|]); left; split; congruence.
  - destruct (q_pop entry_cmp (r_q r)) as [e q].
    destruct (serves (mkReader (r_sc r) q (r_opts r) (r_exhausted r) (r_in r)) (s1 ++ s2)) as [la ra] eqn:SE.
    destruct (IH _ _ _ _ SE) as (l1 & r2 & E & H). rewrite E. exists (Given e :: l1), r2. split; [reflexivity|].
    assert (l = Given e :: la /\ r' = ra) as (-> & ->) by (split; congruence).
    destruct H as [(-> & ->)|(l2 & H & ->)]; [left; auto|right; exists l2; auto].
Qed.

(** ** Positions *)
Lemma twins_end lz F : forall s rb ro lb rb' lo ro', twins lz rb ro F ->
  consumes rb s = (lb, Ok rb') -> consumes ro s = (lo, Ok ro') -> twins lz rb' ro' F.
Proof.
  induction s as [|[] s IH]; intros rb ro lb rb' lo ro' TW Eb Eo; cbn [consumes] in *.
  - assert (rb' = rb /\ ro' = ro) as (-> & ->) by (split; congruence). exact TW.
  - pose proof (twins_scan lz rb ro F TW) as SC. destruct (reader_scan rb) as [rb1 xb]. destruct (reader_scan ro) as [ro1 xo].
    destruct SC as [(-> & NF)|(<- & TW' & NFU)]; [discriminate|]. destruct xb as [[]| | |]; try discriminate. eapply IH; [apply TW'; reflexivity|exact Eb|exact Eo].
  - pose proof (twins_pop lz rb ro F TW) as (_ & PQ).
    destruct (q_pop entry_cmp (r_q rb)) as [eb qb]. destruct (q_pop entry_cmp (r_q ro)) as [eo qo]. cbn [fst snd] in PQ.
    pose proof (twins_pull lz _ _ qb qo F PQ TW) as TW'.
    destruct (consumes (mkReader (r_sc rb) qb (r_opts rb) (r_exhausted rb) (r_in rb)) s) as [l1 x1] eqn:E1.
    destruct (consumes (mkReader (r_sc ro) qo (r_opts ro) (r_exhausted ro) (r_in ro)) s) as [l2 x2] eqn:E2.
    assert (x1 = Ok rb') as -> by congruence. assert (x2 = Ok ro') as -> by congruence. eapply IH; [exact TW'|exact E1|exact E2].
Qed.
Lemma poured_position t src o : steady src -> bytes_of src = t -> valid t -> no_verbatim_tag t ->
  forall s l r, consumes (pour src o) s = (l, Ok r) ->
  lazy_mode o = false \/ ~ In 13%N t /\ unread r <> [] ->
  let st := sc_st (r_sc r) in
  unread r = skipn (sread st) t /\ sread st <= List.length t /\ position t (sread st) (slines st) (scol st).
Proof.
  intros ST B V NV s l r E LN st. destruct (consumes (open t o) s) as [lb xb] eqn:Eb.
  set (lz := lazy_mode o). assert (LZ : lazy_mode o = lz) by reflexivity.
  assert (NR : lz = true -> noret t) by (intros Y; destruct LN as [LN|(LN & _)]; [congruence|exact LN]).
  destruct (owned_sealed lz t src o ST B V LZ NR _ _ _ _ _ E Eb) as [(Q & _)|(HL & AL)]; [discriminate|].
  destruct xb as [rb|e| |]; try contradiction.
  pose proof (twins_end lz _ _ _ _ _ _ _ _ (twins_start lz t src o ST B V LZ NR) Eb E) as TW.
  destruct TW as (T & w & b & b0 & HB & HO & HQ & HX & HOP & _ & HS & Z & GT & G & I & EB).
  assert (sc_st (r_sc rb) = st) as SS by (apply (f_equal sc_st) in HS; exact HS).
  assert (T = t) as ->.
  { assert (forall s r l r', consumes r s = (l, Ok r') -> forall x, r_in r = Borrow x -> r_in r' = Borrow x) as KB.
    { induction s0 as [|[] s0 IH]; intros r0 l0 r0' E0 x X; cbn [consumes] in E0.
      - congruence.
      - destruct (reader_scan r0) as [r1 y] eqn:RS. destruct y as [[]| | |]; try discriminate. apply (IH _ _ _ E0).
        unfold reader_scan in RS. rewrite X in RS. cbn [drive] in RS.
        destruct (scan_tokens (no_extend (r_opts r0)) x (r_sc r0) (r_q r0)) as [[sc1 q1] z].
        match type of RS with (?m, _) = _ => assert (r1 = m) as -> by congruence end. reflexivity.
      - destruct (q_pop entry_cmp (r_q r0)) as [e q].
        destruct (consumes (mkReader (r_sc r0) q (r_opts r0) (r_exhausted r0) (r_in r0)) s0) as [l1 x1] eqn:E1.
        assert (x1 = Ok r0') as -> by congruence. apply (IH _ _ _ E1). exact X. }
    specialize (KB _ _ _ _ Eb t eq_refl). congruence. }
  destruct (get_part _ _ _ GT) as (E1 & L1). destruct (get_part _ _ _ G) as (E2 & _).
  assert (AT : lazy_mode o = false \/ sc_offset (r_sc rb) < List.length t).
  { destruct LN as [LN|(_ & LN)]; [left; exact LN|right]. unfold unread in LN. rewrite HO, <- E2 in LN. unfold rest_of in EB.
    rewrite <- EB, E1 in LN. destruct (Nat.lt_ge_cases (sc_offset (r_sc rb)) (List.length t)) as [?|GE]; [assumption|].
    rewrite (skipn_all2 _ GE) in LN. congruence. }
  destruct (stream_position t o V s lb rb Eb NV AT) as (P1 & P2). rewrite SS in P1, P2.
  rewrite P1 in *. split; [|split; [lia|exact P2]].
  unfold unread. rewrite HO. rewrite <- E2. unfold rest_of in EB. rewrite <- EB. exact E1.
Qed.

(** ** How a source is cut does not matter *)
Fixpoint take_says (cap : N) (l : list event_in) : str * list event_in * bool :=
  if (cap =? 0)%N then ([], l, false)
  else match l with
    | [] => ([], [], false)
    | Failure :: r => ([], r, true)
    | Zero :: r => ([], r, false)
    | Byte x :: r => let '(t, r', e) := take_says (cap - 1) r in (x :: t, r', e)
    end.
Lemma take_bytes b : forall cap r t rest c, read_data cap b = (t, rest, c) ->
  take_says cap (map Byte b ++ r) =
    match rest with
    | [] => let '(t', r', e) := take_says c r in (t ++ t', r', e)
    | _ => (t, map Byte rest ++ r, false)
    end.
Proof.
  induction b as [|x b IH]; intros cap r t rest c Q; cbn [read_data] in Q.
  - assert (t = [] /\ rest = [] /\ c = cap) as (-> & -> & ->) by (repeat split; congruence). cbn [map app].
    destruct (take_says cap r) as [[t' r'] e]. reflexivity.
  - cbn [map app take_says]. destruct (cap =? 0)%N eqn:C0.
    + assert (t = [] /\ rest = x :: b) as (-> & ->) by (split; congruence). reflexivity.
    + destruct (read_data (cap - 1) b) as [[t1 r1] c1] eqn:R. rewrite (IH _ r _ _ _ R).
      assert (t = x :: t1 /\ rest = r1 /\ c = c1) as (-> & -> & ->) by (repeat split; congruence).
      destruct r1; [destruct (take_says c1 r) as [[t' r'] e]|]; reflexivity.
Qed.
Lemma take_eq cap l : take_says cap l =
  if (cap =? 0)%N then ([], l, false)
  else match l with
    | [] => ([], [], false)
    | Failure :: r => ([], r, true)
    | Zero :: r => ([], r, false)
    | Byte x :: r => let '(t, r', e) := take_says (cap - 1) r in (x :: t, r', e)
    end.
Proof. destruct l; reflexivity. Qed.
Lemma says_cons i src : says (i :: src) = (match i with Data [] => [Zero] | Data b => map Byte b | IoErr => [Failure] end) ++ says src.
Proof. reflexivity. Qed.
Lemma read_says : forall src cap t src' e, read_upto cap src = (t, src', e) -> take_says cap (says src) = (t, says src', e).
Proof.
  induction src as [|i src IH]; intros cap t src' e Q; rewrite read_upto_eq in Q.
  { rewrite take_eq. cbn [says flat_map]. destruct (cap =? 0)%N; assert (t = [] /\ src' = [] /\ e = false) as (-> & -> & ->) by (repeat split; congruence); reflexivity. }
  rewrite says_cons. destruct (cap =? 0)%N eqn:C0.
  { rewrite take_eq, C0. assert (t = [] /\ src' = i :: src /\ e = false) as (-> & -> & ->) by (repeat split; congruence). reflexivity. }
  destruct i as [[|x b]|].
  - cbn [app]. rewrite take_eq, C0. assert (t = [] /\ src' = src /\ e = false) as (-> & -> & ->) by (repeat split; congruence). reflexivity.
  - destruct (read_data cap (x :: b)) as [[t1 rest] c] eqn:RD. rewrite (take_bytes _ _ _ _ _ _ RD). destruct rest as [|y rest].
    + destruct (read_upto c src) as [[t2 s2] e2] eqn:RU. rewrite (IH _ _ _ _ RU).
      assert (t = t1 ++ t2 /\ src' = s2 /\ e = e2) as (-> & -> & ->) by (repeat split; congruence). reflexivity.
    + assert (t = t1 /\ src' = Data (y :: rest) :: src /\ e = false) as (-> & -> & ->) by (repeat split; congruence). reflexivity.
  - cbn [app]. rewrite take_eq, C0. assert (t = [] /\ src' = src /\ e = true) as (-> & -> & ->) by (repeat split; congruence). reflexivity.
Qed.
Definition same_own (w w' : owned) : Prop :=
  o_head w = o_head w' /\ o_tail w = o_tail w' /\ o_exhausted w = o_exhausted w' /\ says (o_src w) = says (o_src w').
Lemma same_refresh w w' m : same_own w w' ->
  same_own (fst (refresh_buffer w m)) (fst (refresh_buffer w' m)) /\ snd (refresh_buffer w m) = snd (refresh_buffer w' m).
Proof.
  intros (A & B & C & D). unfold refresh_buffer. rewrite <- A, <- B, <- C.
  destruct (Nat.leb m (List.length (o_head w))); [|cbn; split; [repeat split; auto|reflexivity]].
  destruct (read_upto (chunk_cap (List.length (o_tail w)) m) (o_src w)) as [[t src1] e] eqn:R1.
  destruct (read_upto (chunk_cap (List.length (o_tail w)) m) (o_src w')) as [[t' src2] e'] eqn:R2.
  apply read_says in R1. apply read_says in R2. rewrite D in R1.
  assert (t' = t /\ e' = e /\ says src2 = says src1) as (-> & -> & D2) by (repeat split; congruence).
  destruct e; [cbn; split; [repeat split; auto|reflexivity]|].
  destruct (valid_utf8 (skipn m (o_head w) ++ t)); cbn; split; try reflexivity; repeat split; auto.
Qed.
Lemma same_drive opts : forall f w sc q f' w', same_own w w' ->
  let '(w1, sc1, q1, x) := drive_owned f opts w sc q in
  let '(w2, sc2, q2, x') := drive_owned f' opts w' sc q in
  x = Fuel \/ x' = Fuel \/ same_own w1 w2 /\ sc1 = sc2 /\ q1 = q2 /\ x = x'.
Proof.
  induction f as [|f IH]; intros w sc q f' w' SM.
  { cbn [drive_owned]. destruct (drive_owned f' opts w' sc q) as [[[w2 sc2] q2] x']. left. reflexivity. }
  destruct f' as [|f'].
  { destruct (drive_owned (S f) opts w sc q) as [[[w2 sc2] q2] x']. right. left. reflexivity. }
  cbn [drive_owned]. pose proof SM as (A & B & C & D). rewrite <- A, <- C.
  destruct (scan_tokens (mkFlags (negb (o_exhausted w)) (lazy_mode opts)) (o_head w) sc q) as [[sc1 q1] r].
  destruct r as [[]|e| |]; [auto 10| |auto 10|auto 10].
  destruct e; auto 10.
  pose proof (same_refresh w w' (sc_offset sc1) SM) as (SR & XR).
  destruct (refresh_buffer w (sc_offset sc1)) as [w1 y]. destruct (refresh_buffer w' (sc_offset sc1)) as [w2 y2]. cbn [fst snd] in *. subst y2.
  destruct y as [[]|e| |]; auto 10. apply IH. exact SR.
Qed.
Definition same_reader (r r' : reader) : Prop :=
  r_sc r = r_sc r' /\ r_q r = r_q r' /\ r_opts r = r_opts r' /\ r_exhausted r = r_exhausted r' /\
  exists w w', r_in r = Own w /\ r_in r' = Own w' /\ same_own w w'.
Lemma same_scan r r' : well r -> well r' -> same_reader r r' ->
  same_reader (fst (reader_scan r)) (fst (reader_scan r')) /\ snd (reader_scan r) = snd (reader_scan r').
Proof.
  intros W W' (A & B & C & D & w & w' & I & I' & SM).
  pose proof (scan_well r _ _ (surjective_pairing _) W) as (_ & NF & _).
  pose proof (scan_well r' _ _ (surjective_pairing _) W') as (_ & NF' & _).
  revert NF NF'. unfold reader_scan. rewrite I, I', <- A, <- B, <- C, <- D. cbn [drive].
  pose proof (same_drive (r_opts r) (S (S (src_size (o_src w)))) w (r_sc r) (r_q r) (S (S (src_size (o_src w')))) w' SM) as SD.
  destruct (drive_owned (S (S (src_size (o_src w)))) (r_opts r) w (r_sc r) (r_q r)) as [[[w1 sc1] q1] x].
  destruct (drive_owned (S (S (src_size (o_src w')))) (r_opts r) w' (r_sc r) (r_q r)) as [[[w2 sc2] q2] x'].
  cbn [fst snd]. intros NF NF'. destruct SD as [->|[->|(SO & -> & -> & ->)]]; [congruence|congruence|].
  split; [|reflexivity]. repeat split; auto. exists w1, w2. auto.
Qed.
Lemma same_serves : forall s r r', well r -> well r' -> same_reader r r' -> fst (serves r s) = fst (serves r' s).
Proof.
  induction s as [|[] s IH]; intros r r' W W' SR; cbn [serves]; [reflexivity| |].
  - destruct (same_scan r r' W W' SR) as (SR1 & XE).
    pose proof (scan_well r _ _ (surjective_pairing _) W) as (W1 & _). pose proof (scan_well r' _ _ (surjective_pairing _) W') as (W1' & _).
    destruct (reader_scan r) as [r1 x]. destruct (reader_scan r') as [r1' x']. cbn [fst snd] in *. subst x'.
    specialize (IH r1 r1' W1 W1' SR1). destruct (serves r1 s) as [l1 r2]. destruct (serves r1' s) as [l1' r2']. cbn [fst] in IH. subst l1'.
    destruct x; reflexivity.
  - destruct W as (HQ & W). destruct W' as (HQ' & W'). pose proof SR as (A & B & C & D & E). rewrite <- B in *.
    destruct (q_pop entry_cmp (r_q r)) as [e q] eqn:PQ.
    assert (IH' := IH (mkReader (r_sc r) q (r_opts r) (r_exhausted r) (r_in r)) (mkReader (r_sc r') q (r_opts r') (r_exhausted r') (r_in r'))).
    destruct (serves (mkReader (r_sc r) q (r_opts r) (r_exhausted r) (r_in r)) s) as [l1 r2].
    destruct (serves (mkReader (r_sc r') q (r_opts r') (r_exhausted r') (r_in r')) s) as [l1' r2'].
    cbn [fst] in *. f_equal. apply IH'.
    + split; [apply (pop_held _ _ _ _ PQ HQ)|exact W].
    + split; [apply (pop_held _ _ _ _ PQ HQ')|exact W'].
    + repeat split; auto.
Qed.
Lemma splits_unseen src src' o s : says src = says src' -> fst (serves (pour src o) s) = fst (serves (pour src' o) s).
Proof.
  intros E. apply same_serves; [apply well_pour|apply well_pour|]. repeat split. exists (owned_new src), (owned_new src').
  repeat split. exact E.
Qed.

(** ** As claimed *)
Lemma unread_shrinks src o s1 s2 l1 r1 l2 r2 : serves (pour src o) s1 = (l1, r1) -> serves r1 s2 = (l2, r2) ->
  lossless (l1 ++ l2) -> exists d1 d2, bytes_of src = d1 ++ unread r1 /\ unread r1 = d2 ++ unread r2.
Proof.
  intros E1 E2 (N1 & N2). destruct (serve_well _ _ _ _ E1 (well_pour src o)) as (W & _ & _ & U & _).
  destruct (serve_well _ _ _ _ E2 W) as (_ & _ & _ & U2 & _).
  destruct U as (d1 & D1). { split; intros I; [apply N1|apply N2]; apply in_or_app; auto. }
  destruct U2 as (d2 & D2). { split; intros I; [apply N1|apply N2]; apply in_or_app; auto. }
  exists d1, d2. split; [exact D1|exact D2].
Qed.
Lemma texts_kept src o s1 s2 l1 r1 l2 r2 e : serves (pour src o) s1 = (l1, r1) -> serves r1 s2 = (l2, r2) ->
  In (Given (Some e)) l1 ->
  (exists new, buffers r2 = buffers r1 ++ new) /\
  exists b, In b (buffers r1) /\ (forall y, In y (entry_texts e) -> part_of y b) /\
    forall t, into_token (e_wrap e) = Ok t -> forall y, In y (token_texts t) -> part_of y b.
Proof.
  intros E1 E2 I. destruct (serve_well _ _ _ _ E1 (well_pour src o)) as (W & _ & _ & _ & K).
  destruct (serve_well _ _ _ _ E2 W) as (_ & _ & B2 & _). split; [exact B2|].
  destruct (K e I) as (b & IB & F). exists b. split; [exact IB|]. rewrite Forall_forall in F. split; [exact F|].
  intros t Q y Y. destruct e as [[tk|d] n]; cbn in *.
  - assert (t = tk) as -> by congruence. apply F, Y.
  - pose proof (eval_in _ _ Q) as T. unfold token_in in T. rewrite Forall_forall in T. eapply part_trans; [apply T, Y|apply F; auto].
Qed.
Lemma all_answered :
  (forall (t : str) o s l r, well_formed t -> serves (open t o) s = (l, r) -> ~ In (Scanned Fuel) l) /\
  (forall (src : source) o s l r, serves (pour src o) s = (l, r) -> ~ In (Scanned Fuel) l).
Proof.
  split.
  - intros t o s l r V E. eapply serve_well; [exact E|apply well_open, valid_iff, V].
  - intros src o s l r E. eapply serve_well; [exact E|apply well_pour].
Qed.

(** A source that fails after its first byte. *)
Definition failing : source := [Data (bytes "a"); IoErr; Data (bytes ": b")].
Lemma failure_loses : exists s l r, serves (pour failing (mkFlags false false)) s = (l, r) /\
  l = [Scanned (Ok tt); Scanned (Err RIo)] /\ sread (sc_st (r_sc r)) = 0 /\ unread r = bytes ": b" /\ bytes_of failing = bytes "a: b".
Proof.
  exists [Fill; Fill]. destruct (serves (pour failing (mkFlags false false)) [Fill; Fill]) as [l r] eqn:E. exists l, r. split; [reflexivity|].
  vm_compute in E. assert (l = [Scanned (Ok tt); Scanned (Err RIo)]) as EL by congruence. split; [exact EL|].
  match type of E with (_, ?y) = _ => assert (r = y) as -> by congruence end. repeat split.
Qed.
