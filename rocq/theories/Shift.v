(** Scanning does not depend on where in the stream the text lies: moving the position
    and the line number moves those of the results. *)
From Verif Require Export Block.
From Coq Require Import Lia ZifyBool ZifyN ZifyNat.
Open Scope nat_scope.

Definition rmap {E A B} (f : A -> B) (r : res E A) : res E B := let* x := r in Ok (f x).
Definition smap {S S' R R'} (g : S -> S') (h : R -> R') (s : step S R) : step S' R' :=
  match s with Next s => Next (g s) | Done r => Done (h r) end.
Lemma bind_rmap {E A B C} (f : A -> B) (r : res E A) (k : B -> res E C) : bind (rmap f r) k = bind r (fun x => k (f x)).
Proof. destruct r; reflexivity. Qed.
Lemma rmap_bind {E A B C} (f : B -> C) (r : res E A) (k : A -> res E B) : rmap f (bind r k) = bind r (fun x => rmap f (k x)).
Proof. destruct r; reflexivity. Qed.
Lemma bind_ext {E A B} (r : res E A) (k k' : A -> res E B) : (forall x, k x = k' x) -> bind r k = bind r k'.
Proof. intros H. destruct r; cbn [bind]; auto. Qed.
Lemma loop_rmap {E S S' R R'} (body : S -> res E (step S R)) (body' : S' -> res E (step S' R')) (g : S -> S') (h : R -> R') :
  (forall s, body' (g s) = rmap (smap g h) (body s)) ->
  forall fuel s, loop fuel body' (g s) = rmap h (loop fuel body s).
Proof.
  intros H fuel. induction fuel as [|n IH]; intros s; [reflexivity|]. cbn [loop]. rewrite H.
  destruct (body s) as [[s1|r]| | |]; cbn; auto.
Qed.

Section Shift.
  Variables k l : nat.
  Definition sh (st : stats) : stats := mkStats (sread st + k) (slines st + l) (scol st).
  Definition sh2 (p : str * stats) : str * stats := (fst p, sh (snd p)).
  Definition shf (s : fstate) : fstate := mkF (f_buf s) (sh (f_st s)) (f_scr s) (f_bor s).

  Lemma supd_sh st n i c : supd (sh st) n i c = sh (supd st n i c).
  Proof. unfold supd, sh. cbn [sread slines scol]. f_equal; lia. Qed.
  Lemma adv_sh b st n : adv b (sh st) n = rmap sh2 (adv b st n).
  Proof. unfold adv. rewrite supd_sh, rmap_bind. reflexivity. Qed.
  Lemma line_sh b st : adv_line b (sh st) = rmap sh2 (adv_line b st).
  Proof. unfold adv_line. rewrite supd_sh, rmap_bind. reflexivity. Qed.
  Lemma f_adv_sh s n : f_adv (shf s) n = rmap shf (f_adv s n).
  Proof. unfold f_adv, shf. cbn [f_buf f_st f_scr f_bor]. rewrite adv_sh, bind_rmap, rmap_bind. apply bind_ext. intros [b st]. reflexivity. Qed.
  Lemma f_line_sh s : f_adv_line (shf s) = rmap shf (f_adv_line s).
  Proof. unfold f_adv_line, shf. cbn [f_buf f_st f_scr f_bor]. rewrite line_sh, bind_rmap, rmap_bind. apply bind_ext. intros [b st]. reflexivity. Qed.
  Lemma head_sh s : f_push_head (shf s) = shf (f_push_head s).
  Proof. destruct s as [b st scr bo]. unfold f_push_head, shf, f_push. cbn [f_buf f_st f_scr f_bor]. destruct bo; reflexivity. Qed.
  Lemma push_sh s t : f_push (shf s) t = shf (f_push s t).
  Proof. reflexivity. Qed.
  Lemma sub_sh st st0 : sread (sh st) - sread (sh st0) = sread st - sread st0.
  Proof. cbn [sh sread]. lia. Qed.

  Ltac binds := repeat first [rewrite bind_rmap | rewrite rmap_bind].

  (** ** White space *)
  Lemma eat_body_sh o c b st ch : eat_ws_body o c (b, sh st, ch) = rmap (smap (fun s => (fst (fst s), sh (snd (fst s)), snd s)) sh2) (eat_ws_body o c (b, st, ch)).
  Proof.
    unfold eat_ws_body. rewrite rmap_bind. apply bind_ext. intros _. rewrite adv_sh, line_sh. cbv zeta.
    assert (NX : forall (x : bool) (ch' : bool), (if x then let* '(b', s') := rmap sh2 (adv_line b st) in Ok (Next (b', s', ch'))
      else let* '(b', s') := rmap sh2 (adv b st 1) in Ok (Next (b', s', ch'))) =
      rmap (smap (fun s => (fst (fst s), sh (snd (fst s)), snd s)) sh2)
       (if x then let* '(b', s') := adv_line b st in Ok (Next (b', s', ch')) else let* '(b', s') := adv b st 1 in Ok (Next (b', s', ch')))).
    { intros x ch'. destruct x; binds; apply bind_ext; intros [b1 s1]; reflexivity. }
    rewrite !NX. destruct (is_blank b); [reflexivity|]. destruct (is_break b); [reflexivity|]. destruct (c && _); [reflexivity|].
    destruct (ch && _); reflexivity.
  Qed.
  Lemma eat_loop_sh o c fuel b st ch : loop fuel (eat_ws_body o c) (b, sh st, ch) = rmap sh2 (loop fuel (eat_ws_body o c) (b, st, ch)).
  Proof.
    apply (loop_rmap (eat_ws_body o c) (eat_ws_body o c) (fun s => (fst (fst s), sh (snd (fst s)), snd s)) sh2 ) with (s := (b, st, ch)).
    intros [[b1 s1] c1]. apply eat_body_sh.
  Qed.

  (** ** Plain scalars *)
  Lemma no_borrow_sh base s : p_no_borrow base (shf s) = rmap shf (p_no_borrow base s).
  Proof. unfold p_no_borrow, shf. cbn [f_buf f_st f_scr f_bor]. destruct (f_bor s) eqn:E; [|cbn; rewrite E; reflexivity]. rewrite rmap_bind. reflexivity. Qed.
  Lemma word_sh o flow s : plain_word o flow (shf s) = rmap shf (plain_word o flow s).
  Proof.
    unfold plain_word. apply (loop_rmap _ _ shf shf). clear s. intros s. unfold plain_word_body. cbn [shf f_buf].
    destruct (is_wsZ (f_buf s)); [reflexivity|]. rewrite rmap_bind. apply bind_ext. intros _. destruct (plain_end flow (f_buf s)); [reflexivity|].
    rewrite head_sh, f_adv_sh. binds. reflexivity.
  Qed.
  Definition sh3 (p : fstate * nat * nat) : fstate * nat * nat := (shf (fst (fst p)), snd (fst p), snd p).
  Lemma ws_sh o base s : plain_ws o base (shf s) = rmap sh3 (plain_ws o base s).
  Proof.
    unfold plain_ws. apply (loop_rmap (plain_ws_body o base) (plain_ws_body o base) sh3 sh3) with (s := (s, 0, 0)). clear s.
    intros [[s w] n]. unfold plain_ws_body, sh3. cbn [fst snd]. cbn [shf f_buf]. rewrite rmap_bind. apply bind_ext. intros _.
    destruct (is_blank (f_buf s)); [rewrite head_sh, f_adv_sh; binds; reflexivity|].
    destruct (is_break (f_buf s)); [|reflexivity]. rewrite no_borrow_sh. binds. apply bind_ext. intros s1. rewrite f_line_sh. binds. reflexivity.
  Qed.
  Lemma join_sh s w n : plain_join (shf s) w n = rmap sh3 (plain_join s w n).
  Proof.
    unfold plain_join. destruct n as [|n]; [reflexivity|]. cbn [shf f_scr]. rewrite rmap_bind. apply bind_ext. intros scr. destruct n; reflexivity.
  Qed.
  Definition shp (p : pstate) : pstate := mkP (shf (p_f p)) (sh (p_scalar p)) (p_outdent p) (p_ws p) (p_lines p).
  Lemma plain_body_sh o base i bl p : plain_body o base i bl (shp p) = rmap (smap shp shp) (plain_body o base i bl p).
  Proof.
    unfold plain_body. cbn [shp p_f p_outdent]. cbn [shf f_buf f_st sh scol]. rewrite rmap_bind. apply bind_ext. intros _.
    destruct (_ || _); [reflexivity|]. rewrite word_sh. binds. apply bind_ext. intros s. rewrite ws_sh. binds. apply bind_ext. intros [[s1 w] n].
    cbn [sh3 fst snd]. rewrite join_sh. binds. apply bind_ext. intros [[s2 w2] n2]. reflexivity.
  Qed.
  Definition shr (x : token * nat * stats) : token * nat * stats := (fst (fst x), snd (fst x), sh (snd x)).
  Lemma plain_eager_sh o b st i bl : scan_plain_scalar_eager o b (sh st) i bl = rmap shr (scan_plain_scalar_eager o b st i bl).
  Proof.
    unfold scan_plain_scalar_eager. rewrite rmap_bind. apply bind_ext. intros _. destruct (_ && _); [reflexivity|].
    change (mkP (mkF b (sh st) [] true) (sh st) false 0 0) with (shp (mkP (mkF b st [] true) st false 0 0)).
    rewrite (loop_rmap _ _ shp shp) by apply plain_body_sh. binds. apply bind_ext. intros p. cbn [shp p_f p_scalar p_ws p_lines]. cbv zeta.
    rewrite sub_sh. cbn [shf f_bor f_scr]. rewrite rmap_bind. apply bind_ext. intros scr. rewrite rmap_bind. apply bind_ext. intros t. reflexivity.
  Qed.

  Definition shq (x : str * stats * option nat) : str * stats * option nat := (fst (fst x), sh (snd (fst x)), snd x).
  Lemma lazy_word_sh o flow fuel p : loop fuel (plain_lazy_word_body o flow) (sh2 p) = rmap shq (loop fuel (plain_lazy_word_body o flow) p).
  Proof.
    apply (loop_rmap _ _ sh2 shq). clear p. intros [b st]. unfold sh2. cbn [fst snd]. unfold plain_lazy_word_body.
    destruct (is_wsZ b); [reflexivity|]. rewrite rmap_bind. apply bind_ext. intros _. destruct (plain_end flow b); [reflexivity|].
    rewrite adv_sh. binds. reflexivity.
  Qed.
  Lemma lazy_ws_sh o fuel p : loop fuel (plain_lazy_ws_body o) (sh2 p) = rmap sh2 (loop fuel (plain_lazy_ws_body o) p).
  Proof.
    apply (loop_rmap _ _ sh2 sh2). clear p. intros [b st]. unfold sh2 at 1. cbn [fst snd]. unfold plain_lazy_ws_body.
    rewrite rmap_bind. apply bind_ext. intros _. destruct (is_blank b); [rewrite adv_sh; binds; reflexivity|].
    destruct (is_break b); [rewrite line_sh; binds; reflexivity|reflexivity].
  Qed.
  Definition shw (p : str * stats * stats * bool) : str * stats * stats * bool :=
    (fst (fst (fst p)), sh (snd (fst (fst p))), sh (snd (fst p)), snd p).
  Definition shd (d : deferred) : deferred :=
    match d with
    | DPlain o t st i b => DPlain o t (sh st) i b
    | DBlock o t st i f => DBlock o t (sh st) i f
    | d => d
    end.
  Definition shl (x : deferred * nat * stats) : deferred * nat * stats := (shd (fst (fst x)), snd (fst x), sh (snd x)).
  Lemma plain_lazy_sh o b st i bl : scan_plain_scalar_lazy o b (sh st) i bl = rmap shl (scan_plain_scalar_lazy o b st i bl).
  Proof.
    unfold scan_plain_scalar_lazy. change (b, sh st, sh st, false) with (shw (b, st, st, false)).
    rewrite (loop_rmap (plain_lazy_body o i bl) (plain_lazy_body o i bl) shw (fun x => (sh (fst x), sh (snd x)))).
    - binds. apply bind_ext. intros [lo sc]. cbn [fst snd]. cbv zeta. rewrite !sub_sh. rewrite rmap_bind. reflexivity.
    - intros [[[b1 lo] sc] out]. unfold shw. cbn [fst snd]. unfold plain_lazy_body. cbn [sh scol]. rewrite rmap_bind. apply bind_ext. intros _.
      destruct (_ || _); [reflexivity|]. change (b1, sh lo) with (sh2 (b1, lo)). rewrite lazy_word_sh. binds. apply bind_ext. intros [[b2 lo2] [n|]]; cbn [shq fst snd].
      + rewrite supd_sh. reflexivity.
      + cbv zeta. change (b2, sh lo2) with (sh2 (b2, lo2)). rewrite lazy_ws_sh. binds. apply bind_ext. intros [b3 lo3]. reflexivity.
  Qed.

  (** ** Block scalars *)
  Lemma headers_sh o b st : scan_headers o b (sh st) = rmap (fun x => (fst (fst (fst x)), snd (fst (fst x)), snd (fst x), sh (snd x))) (scan_headers o b st).
  Proof.
    unfold scan_headers. rewrite rmap_bind. apply bind_ext. intros _. cbv zeta.
    match goal with |- context [let (_, _) := ?x in _] => destruct x as [ch s2] end. rewrite adv_sh. binds. apply bind_ext. intros [b1 s1]. reflexivity.
  Qed.
  Lemma skip_blanks_sh o b st : skip_blanks o b (sh st) = rmap sh2 (skip_blanks o b st).
  Proof.
    unfold skip_blanks. rewrite rmap_bind. apply bind_ext. intros _. change (b, sh st) with (sh2 (b, st)).
    rewrite (loop_rmap (skip_blank_body o) (skip_blank_body o) sh2 sh2).
    - binds. apply bind_ext. intros [b1 s1]. cbn [sh2 fst snd]. destruct (at_is b1 0 35); [|reflexivity].
      apply (loop_rmap (skip_line_body o) (skip_line_body o) sh2 sh2) with (s := (b1, s1)). intros [b2 s2]. unfold sh2 at 1. cbn [fst snd]. unfold skip_line_body.
      destruct (is_breakZ b2); [reflexivity|]. rewrite rmap_bind. apply bind_ext. intros _. rewrite adv_sh. binds. reflexivity.
    - intros [b2 s2]. unfold sh2 at 1. cbn [fst snd]. unfold skip_blank_body. destruct (is_blank b2); [|reflexivity].
      rewrite rmap_bind. apply bind_ext. intros _. rewrite adv_sh. binds. reflexivity.
  Qed.
  Lemma header_sh o b st : block_header o b (sh st) = rmap (fun x => (fst (fst (fst x)), snd (fst (fst x)), snd (fst x), sh (snd x))) (block_header o b st).
  Proof.
    unfold block_header. rewrite rmap_bind. apply bind_ext. intros _. rewrite adv_sh. binds. apply bind_ext. intros [b1 s1]. cbn [sh2 fst snd].
    rewrite headers_sh. binds. apply bind_ext. intros [[[ch ex] b2] s2]. cbn [fst snd]. rewrite skip_blanks_sh. binds. apply bind_ext. intros [b3 s3]. cbn [sh2 fst snd].
    rewrite rmap_bind. apply bind_ext. intros _. destruct (negb (is_wsZ b3)); [reflexivity|].
    rewrite line_sh. binds. apply bind_ext. intros [b4 s4]. reflexivity.
  Qed.

  Definition shb3 (p : str * stats * bool) : str * stats * bool := (fst (fst p), sh (snd (fst p)), snd p).
  Definition shb5 (p : str * stats * bool * nat * nat) : str * stats * bool * nat * nat :=
    (shb3 (fst (fst p)), snd (fst p), snd p).
  Lemma space_sh o n fuel p : loop fuel (detect_space_body o n) (shb3 p) = rmap shb3 (loop fuel (detect_space_body o n) p).
  Proof.
    apply (loop_rmap _ _ shb3 shb3). clear p. intros [[b st] bo]. unfold shb3 at 1. cbn [fst snd]. unfold detect_space_body.
    destruct (is_blank b); [|reflexivity]. rewrite rmap_bind. apply bind_ext. intros _. destruct (at_is b 0 9); [reflexivity|]. cbv zeta.
    rewrite adv_sh. binds. apply bind_ext. intros [b1 s1]. reflexivity.
  Qed.
  Lemma detect_sh o b st i n bo : detect_indent_level o b (sh st) i n bo =
    rmap (fun x : nat * str * stats * nat * bool => let '(ind, b, s, n, bo) := x in (ind, b, sh s, n, bo)) (detect_indent_level o b st i n bo).
  Proof.
    unfold detect_indent_level. change (b, sh st, bo, n, 0) with (shb5 (b, st, bo, n, 0)).
    rewrite (loop_rmap (detect_body o) (detect_body o) shb5 shb5).
    - binds. apply bind_ext. intros [[[[b1 s1] bo1] n1] i1]. reflexivity.
    - intros [[[[b1 s1] bo1] n1] i1]. unfold shb5, shb3. cbn [fst snd]. unfold detect_body. rewrite rmap_bind. apply bind_ext. intros _.
      change (b1, sh s1, bo1) with (shb3 (b1, s1, bo1)). rewrite space_sh. binds. apply bind_ext. intros [[b2 s2] bo2]. cbn [shb3 fst snd]. cbv zeta. cbn [sh scol].
      rewrite rmap_bind. apply bind_ext. intros _. destruct (negb (is_break b2)); [reflexivity|]. fold (sh s2). rewrite line_sh. binds. apply bind_ext. intros [b3 s3]. reflexivity.
  Qed.
  Definition shn (p : str * stats * nat) : str * stats * nat := (fst (fst p), sh (snd (fst p)), snd p).
  Lemma indent_sh o b st n i : scan_indent o b (sh st) n i = rmap shn (scan_indent o b st n i).
  Proof.
    unfold scan_indent. cbn [sh scol]. destruct (Nat.leb i (scol st)); [reflexivity|]. rewrite rmap_bind. apply bind_ext. intros _.
    apply (loop_rmap (scan_indent_body o i) (scan_indent_body o i) shn shn) with (s := (b, st, n)).
    intros [[b1 s1] n1]. unfold shn at 1. cbn [fst snd]. unfold scan_indent_body. cbn [sh scol]. fold (sh s1).
    destruct (_ && _); [|reflexivity]. rewrite rmap_bind.
    match goal with |- bind ?x _ = bind ?y _ => assert (X : x = rmap shn y) end.
    { rewrite adv_sh, line_sh. destruct (at_is b1 0 32); [binds; apply bind_ext; intros [b2 s2]; reflexivity|]. destruct (at_is b1 0 9); [reflexivity|].
      destruct (is_break b1); [binds; apply bind_ext; intros [b2 s2]; reflexivity|reflexivity]. }
    rewrite X. clear X.
    rewrite bind_rmap. apply bind_ext. intros [[b2 s2] n2]. cbn [shn fst snd]. rewrite rmap_bind. reflexivity.
  Qed.
  Lemma line_loop_sh o fuel s : loop fuel (block_line_body o) (shf s) = rmap shf (loop fuel (block_line_body o) s).
  Proof.
    apply (loop_rmap _ _ shf shf). clear s. intros s. unfold block_line_body. cbn [shf f_buf]. destruct (is_breakZ (f_buf s)); [reflexivity|].
    rewrite rmap_bind. apply bind_ext. intros _. rewrite head_sh, f_adv_sh. binds. reflexivity.
  Qed.
  Definition shb (b : bstate) : bstate := mkB (shf (b_f b)) (b_start b) (b_end b) (b_lines b).
  Lemma block_body_sh o base st0 i fold b : block_body o base (sh st0) i fold (shb b) = rmap (smap shb shb) (block_body o base st0 i fold b).
  Proof.
    unfold block_body. cbn [shb b_f b_lines b_start b_end]. cbn [shf f_st f_buf sh scol]. destruct (_ && _); [|reflexivity]. cbv zeta.
    rewrite rmap_bind.
    match goal with |- bind ?x _ = bind ?y _ => assert (X : x = rmap shf y) end.
    { cbn [shf f_bor f_scr]. destruct (f_bor (b_f b) && _); [rewrite rmap_bind; apply bind_ext; intros t; reflexivity|reflexivity]. }
    rewrite X, bind_rmap. clear X. apply bind_ext. intros s1.
    match goal with |- bind (cache o (f_buf ?x) 1) _ = rmap _ (bind (cache o (f_buf ?y) 1) _) => assert (X : x = shf y); [|rewrite X; generalize y; clear X] end.
    { destruct fold; [destruct (b_lines b) as [|[|]]|]; reflexivity. }
    clear s1. intros s2. rewrite rmap_bind. cbn [shf f_buf]. apply bind_ext. intros _. fold (shf s2). rewrite line_loop_sh. binds. apply bind_ext. intros s3.
    cbn [shf f_bor f_st f_scr f_buf]. rewrite !sub_sh. rewrite rmap_bind. apply bind_ext. intros _. fold (shf s3). rewrite rmap_bind.
    match goal with |- bind ?x _ = bind ?y _ => assert (X : x = rmap (fun p => (shf (fst p), snd p)) y) end.
    { destruct (is_break (f_buf s3)); [rewrite f_line_sh; binds; apply bind_ext; intros s4; reflexivity|reflexivity]. }
    rewrite X, bind_rmap. clear X. apply bind_ext. intros [s4 n4]. cbn [fst snd]. cbn [shf f_buf f_st f_scr f_bor]. rewrite indent_sh. binds.
    apply bind_ext. intros [[b5 s5] n5]. reflexivity.
  Qed.
  Lemma block_eager_sh o b st i fold : scan_block_scalar_eager o b (sh st) i fold = rmap shr (scan_block_scalar_eager o b st i fold).
  Proof.
    unfold scan_block_scalar_eager. rewrite header_sh. binds. apply bind_ext. intros [[[ch ex] b1] s1]. cbn [fst snd]. rewrite rmap_bind.
    match goal with |- bind ?x _ = bind ?y _ => assert (X : x = rmap (fun z : nat * str * stats * nat * bool => let '(ind, b, s, n, bo) := z in (ind, b, sh s, n, bo)) y) end.
    { destruct ex; [reflexivity|apply detect_sh]. }
    rewrite X, bind_rmap. clear X. apply bind_ext. intros [[[[ind b2] s2] n2] bo2].
    rewrite sub_sh. match goal with |- context [let (_, _) := ?x in _] => destruct x as [start scr] end.
    change (mkB (mkF b2 (sh s2) scr bo2) start 0 0) with (shb (mkB (mkF b2 s2 scr bo2) start 0 0)).
    rewrite (loop_rmap _ _ shb shb) by apply block_body_sh. binds. apply bind_ext. intros b3. cbv zeta. cbn [shb b_f b_start b_end b_lines]. cbn [shf f_scr f_bor f_buf f_st].
    rewrite rmap_bind. reflexivity.
  Qed.
  Lemma block_lazy_sh o b st i fold : scan_block_scalar_lazy o b (sh st) i fold = rmap shl (scan_block_scalar_lazy o b st i fold).
  Proof.
    unfold scan_block_scalar_lazy. rewrite header_sh. binds. apply bind_ext. intros [[[ch ex] b1] s1]. cbn [fst snd]. rewrite rmap_bind.
    match goal with |- bind ?x _ = bind ?y _ => assert (X : x = rmap (fun z : nat * str * stats => (fst (fst z), snd (fst z), sh (snd z))) y) end.
    { destruct ex; [reflexivity|]. rewrite detect_sh. binds. apply bind_ext. intros [[[[ind b2] s2] n2] bo2]. reflexivity. }
    rewrite X, bind_rmap. clear X. apply bind_ext. intros [[ind b2] s2]. cbn [fst snd]. change (b2, sh s2) with (sh2 (b2, s2)).
    rewrite (loop_rmap (block_lazy_body o ind) (block_lazy_body o ind) sh2 sh2).
    - binds. apply bind_ext. intros [b3 s3]. cbn [sh2 fst snd]. cbv zeta. rewrite rmap_bind. reflexivity.
    - intros [b3 s3]. unfold sh2 at 1. cbn [fst snd]. unfold block_lazy_body. cbn [sh scol]. destruct (_ && _); [|reflexivity].
      rewrite rmap_bind. apply bind_ext. intros _. change (mkF b3 (sh s3) [] true) with (shf (mkF b3 s3 [] true)).
      rewrite line_loop_sh. binds. apply bind_ext. intros f1. rewrite rmap_bind. cbn [shf f_buf]. apply bind_ext. intros _. fold (shf f1).
      rewrite rmap_bind.
      match goal with |- bind ?x _ = bind ?y _ => assert (X : x = rmap shf y) end.
      { destruct (is_break (f_buf f1)); [apply f_line_sh|reflexivity]. }
      rewrite X, bind_rmap. clear X. apply bind_ext. intros f2. cbn [shf f_buf f_st]. rewrite indent_sh. binds. apply bind_ext. intros [[b5 s5] n5]. reflexivity.
  Qed.

  (** Where a deferred scalar was found does not matter for its value. *)
  Lemma eval_sh d : eval_deferred (shd d) = eval_deferred d.
  Proof.
    destruct d as [o t st s|o t st i b|o t st i f]; cbn [shd eval_deferred]; [reflexivity| |].
    - rewrite plain_eager_sh, bind_rmap. apply bind_ext. intros [[a b1] c]. reflexivity.
    - rewrite block_eager_sh, bind_rmap. apply bind_ext. intros [[a b1] c]. reflexivity.
  Qed.
End Shift.
