(** Plain scalars of streams. *)
From Verif Require Export NameFacts PlainSem.
From Verif Require Import Utf8Facts.
From Verif Require BasicFacts.
From Coq Require Import Lia ZifyBool ZifyN ZifyNat.
Open Scope nat_scope.

(** ** Completeness of the eager scanner *)
Lemma start_first block s st : plain_start (negb block) s -> ~ (scol st = 0 /\ document_marker s) -> plain_first s st block.
Proof.
  intros (c & r & E & NW & NI & SP) DM. subst s. split; [|split; [|split]].
  - destruct (is_wsZ (c :: r)) eqn:X; [|reflexivity]. apply wsZ_iff in X as [X|X]; [discriminate|tauto].
  - destruct (is_doc_indicator (c :: r) (scol st)) eqn:X; [|reflexivity]. exfalso. apply DM.
    unfold is_doc_indicator in X. assert (Z : scol st = 0) by (destruct (scol st); [reflexivity|discriminate]).
    split; [exact Z|]. apply document_marker_iff. unfold is_doc_indicator. rewrite Z in X. exact X.
  - unfold at_is. cbn [nth_error]. destruct (c =? 35)%N eqn:X; [|reflexivity]. exfalso. apply NI.
    assert (c = 35%N) as -> by lia. cbn. tauto.
  - apply not_closed. intros [(q & E & W)|(_ & d & q & E & I)]; injection E as -> ->.
    + destruct SP as (A & B & _); [cbn; tauto|]. tauto.
    + apply NI. cbn in I |- *. tauto.
Qed.
Lemma start_valid flow s : plain_start flow s -> s <> [].
Proof. intros (c & r & -> & _). discriminate. Qed.

Lemma plain_complete o base st indent block v r : extendable o = false -> all_ascii base ->
  plain_start (negb block) base -> ~ (scol st = 0 /\ document_marker base) ->
  plain (negb block) indent (scol st) base v r ->
  exists c st', scan_plain_scalar_eager o base st indent block = Ok (TScalar c Plain, List.length base - List.length r, st') /\
    cow_str c = v /\ base = firstn (List.length base - List.length r) base ++ r /\ reads base st r st' /\
    0 < List.length base - List.length r.
Proof.
  intros NE A PS DM P. assert (V : valid base) by (apply valid_text, A).
  pose proof (start_first _ _ _ PS DM) as F.
  pose proof (scan_plain_eager_leaf o base st indent block F) as L.
  destruct (scan_plain_scalar_eager o base st indent block) as [[[tok n] st']|e| |] eqn:E; cbn [leaf] in L.
  - destruct (plain_sound _ _ _ _ _ _ _ _ V F E) as (c & -> & Q & LE & _).
    destruct (plain_det _ _ _ _ _ _ P _ _ Q) as [EV ER].
    assert (n = List.length base - List.length r) as ->.
    { rewrite <- ER, skipn_length. lia. }
    exists c, st'. split; [reflexivity|]. split; [exact EV|]. split.
    { rewrite <- ER at 2. symmetry. apply firstn_skipn. }
    destruct L as (L1 & L2 & _). rewrite ER in L2. split; [exact L2|lia].
  - exfalso. destruct (eager_quiet _ _ _ _ _ _ E) as [-> | ->]; [rewrite L in NE by reflexivity; discriminate|].
    destruct PS as (c & q & -> & NW & NI & SP). unfold scan_plain_scalar_eager in E. rewrite (cache_static _ _ _ NE) in E.
    cbn [bind] in E. destruct block.
    + cbn [negb andb] in E. pose proof (eager_quiet o (c :: q) st indent true InvalidPlainScalar) as _.
      match type of E with bind ?m ?k = _ => assert (QT : quiet (bind m k)) by quiet end.
      specialize (QT _ E). discriminate.
    + cbn [negb andb] in E. destruct ((at_is (c :: q) 0 58 || at_is (c :: q) 0 63 || at_is (c :: q) 0 45) && is_flow_ind_at (c :: q) 1) eqn:X.
      * apply andb_prop in X as [X1 X2]. unfold at_is in X1. cbn [nth_error] in X1.
        destruct SP as (_ & _ & S3); [cbn; lia|]. unfold is_flow_ind_at in X2. cbn [nth_error] in X2.
        destruct q as [|d q]; [discriminate|]. cbn [nth_error] in X2.
        apply (S3 eq_refl d q eq_refl). unfold is_flow_ind_byte in X2. unfold flow_indicators. cbn [In]. lia.
      * match type of E with bind ?m ?k = _ => assert (QT : quiet (bind m k)) by quiet end.
        specialize (QT _ E). discriminate.
  - exfalso. apply L. exact A.
  - destruct L.
Qed.

(** ** A text that is one plain scalar *)
Lemma dispatch_plain o c r : all_ascii (c :: r) -> plain_start false (c :: r) -> ~ document_marker (c :: r) ->
  dispatch o (mkMs (c :: r) ready q_new) = fetch_plain_scalar o (mkMs (c :: r) ready q_new).
Proof.
  intros A PS DM. set (t := c :: r) in *. pose proof PS as (c' & r' & E & NW & NI & SP). injection E as <- <-.
  assert (H : forall x, In x [44; 91; 93; 123; 125; 35; 38; 42; 33; 124; 62; 39; 34; 37; 64; 96]%N -> at_is t 0 x = false).
  { intros x I. unfold at_is, t. cbn [nth_error]. destruct (c =? x)%N eqn:X; [|reflexivity].
    exfalso. apply NI. assert (c = x) as -> by lia. exact I. }
  assert (W1 : In c [45; 63; 58]%N -> is_wsZ_at t 1 = false).
  { intros I. destruct (SP I) as (S1 & S2 & _). unfold is_wsZ_at, t. cbn [skipn].
    destruct (is_wsZ r) eqn:X; [|reflexivity]. apply wsZ_iff in X. tauto. }
  assert (W2 : forall x, In x [45; 63; 58]%N -> at_is t 0 x = true -> is_wsZ_at t 1 = false).
  { intros x I X. unfold at_is, t in X. cbn [nth_error] in X. apply W1. assert (c = x) as -> by lia. exact I. }
  unfold dispatch. erewrite run_bind by reflexivity. erewrite run_bind by reflexivity.
  cbn [m_buf m_sc ready sc_st sc_cxt]. cbv zeta beta.
  assert (D0 : (starts_with t (bytes "---") || starts_with t (bytes "...")) && (Nat.eqb (scol stats0) 0 && is_wsZ_at t 3) = false).
  { destruct (_ && _) eqn:X; [|reflexivity]. exfalso. apply DM, document_marker_iff. unfold is_doc_indicator.
    cbn [scol stats0 Nat.eqb andb] in X |- *. first [exact X | rewrite andb_comm; exact X]. }
  rewrite D0. rewrite (H 37%N), (H 123%N), (H 91%N), (H 125%N), (H 93%N), (H 44%N), (H 38%N), (H 42%N), (H 33%N), (H 124%N), (H 62%N), (H 39%N), (H 34%N) by (cbn; tauto).
  cbn [orb andb is_block is_flow].
  assert (F1 : at_is t 0 45 && is_wsZ_at t 1 = false).
  { destruct (at_is t 0 45) eqn:X; [|reflexivity]. apply (W2 45%N); [cbn; tauto|exact X]. }
  assert (F2 : at_is t 0 63 && (is_flow cxt0 || is_wsZ_at t 1) = false).
  { destruct (at_is t 0 63) eqn:X; [|reflexivity]. apply (W2 63%N); [cbn; tauto|exact X]. }
  assert (F3 : at_is t 0 58 && (is_wsZ_at t 1 || is_flow cxt0) = false).
  { destruct (at_is t 0 58) eqn:X; [|reflexivity]. change (is_flow cxt0) with false. rewrite orb_false_r. apply (W2 58%N); [cbn; tauto|exact X]. }
  rewrite F1, F2, F3.
  assert (IP : is_plain_scalar t cxt0 = true).
  { unfold is_plain_scalar. assert (is_wsZ t = false) as ->.
    { destruct (is_wsZ t) eqn:X; [|reflexivity]. apply wsZ_iff in X as [X|X]; [discriminate|tauto]. }
    unfold t. assert (NI' : forall x, In x [44; 91; 93; 123; 125; 35; 38; 42; 33; 124; 62; 39; 34; 37; 64; 96]%N -> (c =? x)%N = false).
    { intros x I. specialize (H x I). exact H. }
    rewrite (NI' 37%N), (NI' 38%N), (NI' 42%N), (NI' 33%N), (NI' 39%N), (NI' 34%N), (NI' 123%N), (NI' 91%N), (NI' 125%N), (NI' 44%N), (NI' 124%N), (NI' 62%N), (NI' 35%N), (NI' 64%N), (NI' 96%N), (NI' 93%N) by (cbn; tauto).
    cbn [orb andb]. change (is_plain_safe_c (c :: r) 1 (is_block cxt0)) with true.
    cbn [negb]. rewrite andb_false_r. reflexivity. }
  rewrite IP. reflexivity.
Qed.

Lemma plain_alone (t : str) o v r : lazy_mode o = false -> all_ascii t -> plain_start false t -> ~ document_marker t ->
  plain false 1 0 t v r -> skips false r [] ->
  exists c, cow_str c = v /\
    yields t o [mkEntry (Tok TStreamStart) 0; mkEntry (Tok (TScalar c Plain)) (List.length t - List.length r);
                mkEntry (Tok TStreamEnd) (List.length t)].
Proof.
  intros NL A PS DM P SK. assert (V : valid t) by (apply valid_text, A).
  destruct (plain_complete (no_extend o) t stats0 1 true v r eq_refl A PS (fun x => DM (proj2 x)) P) as (c & st' & E & EV & SPL & R & POS).
  exists c. split; [exact EV|]. pose proof (reads_len _ _ _ _ R) as (RL0 & RL & _). cbn [sread stats0] in RL.
  set (n := List.length t - List.length r) in *.
  destruct t as [|x t']; [destruct (start_valid _ _ PS eq_refl)|]. set (t := x :: t') in *.
  assert (OP : opener x).
  { destruct PS as (c' & r' & E' & NW & NI & _). injection E' as <- <-. apply Forall_inv in A. cbn beta in A.
    unfold opener. split; [exact A|]. repeat split; intros ->; try (apply NW; left; eexists _, _; split; [reflexivity|]; unfold blank; tauto);
      try (apply NI; cbn; tauto).
    - apply NW. right. discriminate.
    - apply NW. right. unfold t, break_len. destruct t' as [|y t']; [discriminate|]. cbn. destruct (y =? 10)%N; discriminate. }
  assert (AR : all_ascii r).
  { rewrite SPL in A. apply Forall_app in A. apply A. }
  assert (NR : skipn n t = r).
  { rewrite SPL at 1. rewrite skipn_app, firstn_length, skipn_all2 by (rewrite firstn_length; lia).
    replace (n - Nat.min n (List.length t)) with 0 by (unfold n; lia). reflexivity. }
  assert (D : dispatch (no_extend o) (mkMs t ready q_new) =
    (mkMs r (mkSc 0 SStream false st' (Some (new_key stats0 false)) cxt0) (q_push q_new (mkEntry (Tok (TScalar c Plain)) (sread st'))), Ok tt)).
  { unfold t. rewrite dispatch_plain by assumption. fold t.
    unfold fetch_plain_scalar. erewrite run_bind by reflexivity. erewrite run_bind by reflexivity.
    cbn [m_buf m_sc].
    assert (SP : scan_plain_scalar (no_extend o) t stats0 cxt0 = Ok (Tok (TScalar c Plain), n, st')).
    { unfold scan_plain_scalar. change (lazy_mode (no_extend o)) with (lazy_mode o). rewrite NL.
      change (indent_add (cur_indent cxt0) 1) with 1. change (is_block cxt0) with true. rewrite E. reflexivity. }
    erewrite run_bind; [|unfold mlift; cbn [sc_st sc_cxt ready]; rewrite SP; reflexivity]. cbv beta iota.
    assert (SV : save_key false (mkMs t ready q_new) = (mkMs t (set_key (Some (new_key stats0 false)) ready) q_new, Ok tt)) by reflexivity.
    erewrite run_bind; [|exact SV]. erewrite run_bind by reflexivity.
    assert (AD : forall sc, advance n (mkMs t sc q_new) = (mkMs r sc q_new, Ok tt)).
    { intros sc. rewrite <- NR. unfold advance, mbind, get_buf, mlift, put_buf. cbn [m_buf].
      pose proof (skip_app (E := scan_error) (firstn n t) r (valid_head _ (valid_text _ AR))) as SA.
      rewrite <- SPL in SA. rewrite firstn_length, Nat.min_l in SA by (unfold n; lia). rewrite SA, NR. reflexivity. }
    erewrite run_bind; [|apply AD]. reflexivity. }
  destruct (one_token (no_extend o) x t' (firstn n t) r _ _ eq_refl OP SPL (valid_text _ AR) AR SK D eq_refl eq_refl eq_refl) as (k & sc' & SD & CL).
  pose proof (calls_yields t o k _ sc' V CL SD) as Y.
  cbn [sc_st] in Y. replace (sread st') with n in Y by (unfold n; lia).
  replace (n + List.length r) with (List.length t) in Y by (unfold n; lia).
  assert (LE : n <=? List.length t = true) by (apply Nat.leb_le; unfold n; lia).
  assert (IS : forall u v w, e_read u = 0 -> e_read v = n -> e_read w = List.length t -> isort [u; v; w] = [u; v; w]).
  { intros u v' w Eu Ev Ew. unfold isort. cbn [fold_left ins]. rewrite Eu, Ev. cbn [Nat.leb]. cbn [ins].
    rewrite Eu, Ev, Ew. cbn [Nat.leb]. rewrite LE. reflexivity. }
  rewrite IS in Y by reflexivity. exact Y.
Qed.

(** ** Plain scalars anywhere in a stream *)
Lemma stream_plain t o s l x e c : valid t -> consumes (open t o) s = (l, x) -> In e l ->
  e_wrap e = Tok (TScalar c Plain) ->
  exists n flow indent k r, is_boundary t n = true /\ plain flow indent k (skipn n t) (cow_str c) r /\
    goes_on flow 0 k (skipn n t) /\ ~ white (skipn n t) /\
    (exactly t -> exists line, reads t stats0 (skipn n t) (mkStats n line k)) /\
    (exactly t -> r = skipn (e_read e) t) /\
    (forall y, c = Borrowed y -> skipn n t = y ++ r).
Proof.
  intros V C IN EW. destruct (stream_from t o V s l x e C IN) as (n & st & cx & k & st' & B & CT & ER & POS).
  { unfold e_marker. rewrite EW. reflexivity. }
  rewrite EW in CT.
  assert (K : plain_first (skipn n t) st (is_block cx) /\ lazy_mode o = false /\
    scan_plain_scalar_eager (no_extend o) (skipn n t) st (indent_add (cur_indent cx) 1) (is_block cx) = Ok (TScalar c Plain, k, st')).
  { remember (Tok (TScalar c Plain)) as m eqn:EM.
    destruct CT as [A|start A1 A2 A3|dk tok buf k d A1 A2 A3 D A4|tok k d A D|alias tok buf k d A D A2
      |sg tok k d A D|tok k st' A D|fd tok k st' A1 A2 D].
    - discriminate.
    - destruct start; discriminate.
    - destruct (ScanFacts.directive_kind _ _ _ _ _ _ _ D) as [(? & ? & ->)|(? & ? & ->)]; discriminate.
    - destruct (tag_kind _ _ _ _ _ _ D) as (? & ? & ->). discriminate.
    - destruct (anchor_kind _ _ _ _ _ _ _ D) as (? & ->). destruct alias; discriminate.
    - subst tok. destruct (flow_style _ _ _ _ _ _ _ D) as (L & E & y & E'). destruct sg; discriminate.
    - subst tok. split; [exact A|]. unfold scan_plain_scalar in D. change (lazy_mode (no_extend o)) with (lazy_mode o) in D.
      destruct (lazy_mode o); [apply bind_inv in D as ([[? ?] ?] & _ & D); discriminate|].
      split; [reflexivity|]. apply bind_inv in D as ([[tk k'] st2] & D & X). injection X as <- <- <-. exact D.
    - subst tok. destruct (block_style _ _ _ _ _ _ _ _ D) as (y & E). destruct fd; discriminate. }
  destruct K as (PF & NL & E).
  assert (VS : valid (skipn n t)) by (apply valid_skipn; assumption).
  destruct (plain_sound _ _ _ _ _ _ _ _ VS PF E) as (c' & ET & P & LE & BR).
  assert (c' = c) as -> by congruence.
  exists n, (negb (is_block cx)), (indent_add (cur_indent cx) 1), (scol st), (skipn k (skipn n t)).
  split; [exact B|]. split; [exact P|].
  destruct PF as (F1 & F2 & F3 & F4). split.
  { apply goes_on_iff. rewrite F2, F3, F4. rewrite !orb_false_r.
    destruct (is_empty (skipn n t)) eqn:X; [|cbn [orb]; rewrite (proj2 (Nat.ltb_ge _ _)) by lia; apply andb_false_r].
    destruct (skipn n t); [discriminate F1|discriminate X]. }
  split.
  { intros W. assert (is_wsZ (skipn n t) = true) by (apply wsZ_iff; auto). congruence. }
  split; [|split].
  - intros EX. destruct (POS EX) as [R1 _]. exists (slines st).
    pose proof (suffix_exact t (skipn n t) st n) as XS. rewrite XS at 2; [destruct st; exact R1| |reflexivity|exact R1].
    destruct (skipn n t); [discriminate F1|discriminate].
  - intros EX. destruct (POS EX) as [_ R2]. specialize (R2 NL). apply exact_suffix in R2.
    rewrite ER, <- R2, skipn_skipn. reflexivity.
  - intros y ->. rewrite (BR y eq_refl). symmetry. apply firstn_skipn.
Qed.

(** ** Lines of plain scalars *)
Lemma pieces_space g p s : solid s -> p = Space \/ p = Tab -> forall k,
  exists k', space k (breaks (g ++ [p])) (spelled (g ++ [p]) ++ s) k' s /\ 1 <= k'.
Proof.
  intros SO P. induction g as [|q g IH]; intros k; cbn [app spelled breaks flat_map filter].
  - exists (S k). split; [|lia]. assert (NW : ~ white s) by (destruct SO as (c & r & -> & A & B); apply white_none; assumption).
    destruct P as [-> | ->]; cbn; (apply sp_blank; [unfold blank; tauto|apply sp_end, NW]).
  - rewrite <- app_assoc. fold (spelled (g ++ [p])) (breaks (g ++ [p])). destruct q; cbn [spell app List.length].
    + destruct (IH (Datatypes.S k)) as (k' & G & L). exists k'. split; [|exact L]. apply sp_blank; [left; reflexivity|exact G].
    + destruct (IH (Datatypes.S k)) as (k' & G & L). exists k'. split; [|exact L]. apply sp_blank; [right; reflexivity|exact G].
    + destruct (IH 0) as (k' & G & L). exists k'. split; [|exact L]. apply sp_break; [discriminate|exact G].
    + destruct (IH 0) as (k' & G & L). exists k'. split; [|exact L]. apply sp_break; [discriminate|exact G].
Qed.
Lemma not_colon_closed c s : c <> 58%N -> ~ closed false (c :: s).
Proof. intros N [(r & E & _)|(E & _)]; [injection E as -> _; congruence|discriminate]. Qed.
Lemma plain_letters w s v r k : all_ascii w -> no_white w -> Forall (fun c => c <> 58)%N w ->
  plain false 1 (List.length w + k) s v r -> plain false 1 k (w ++ s) (w ++ v) r.
Proof.
  revert k. induction w as [|c w IH]; intros k A W C P; [exact P|].
  pose proof (Forall_inv A) as AC. pose proof (Forall_inv W) as WC. pose proof (Forall_inv C) as CC. cbn beta in AC, WC, CC.
  pose proof (pl_char false 1 k c (w ++ s) (w ++ v) r) as K. rewrite (ContentFacts.encode_ascii c AC) in K. apply K.
  - unfold scalar_value. lia.
  - apply white_none; assumption.
  - apply not_colon_closed, CC.
  - apply IH; [exact (Forall_inv_tail A)|exact (Forall_inv_tail W)|exact (Forall_inv_tail C)|].
    replace (List.length w + S k) with (List.length (c :: w) + k) by (cbn; lia). exact P.
Qed.
Lemma plain_lines l : Forall (fun gw => indented (fst gw) /\ plain_word (snd gw)) l -> forall k, 
  plain false 1 k (flat_map (fun gw => spelled (fst gw) ++ snd gw) l) (flat_map (fun gw => SpecContent.between (fst gw) ++ snd gw) l) [].
Proof.
  induction l as [|[g w] l IH]; intros F k; cbn [flat_map fst snd].
  - apply pl_end. auto.
  - pose proof (Forall_inv F) as [GI WI]. cbn [fst snd] in GI, WI.
    destruct GI as (g' & p & -> & PP). destruct WI as (A & W & C & c & r & -> & N).
    specialize (IH (Forall_inv_tail F)).
    set (rest := flat_map (fun gw => spelled (fst gw) ++ snd gw) l) in *.
    set (val := flat_map (fun gw => SpecContent.between (fst gw) ++ snd gw) l) in *.
    rewrite <- !app_assoc.
    assert (SO : solid ((c :: r) ++ rest)).
    { exists c, (r ++ rest). split; [reflexivity|]. split; [exact (Forall_inv A)|exact (Forall_inv W)]. }
    destruct (pieces_space g' p _ SO PP k) as (k' & G & L).
    assert (GO : goes_on false 1 k' ((c :: r) ++ rest)).
    { split; [discriminate|]. split; [intros q E; injection E as E _; congruence|].
      split; [apply not_colon_closed, (Forall_inv C)|]. split; [intros [-> _]; lia|auto]. }
    pose proof (plain_letters (c :: r) rest val [] k' A W C (IH _)) as P.
    unfold SpecContent.between at 1. cbn [fst]. destruct (breaks (g' ++ [p]) =? 0) eqn:B.
    + apply Nat.eqb_eq in B. rewrite B in G. refine (pl_blanks _ _ _ _ k' _ _ _ _ G GO P).
      destruct g' as [|[] g']; [destruct PP as [-> | ->]|..]; discriminate.
    + destruct (breaks (g' ++ [p])) as [|n] eqn:B2; [discriminate|]. apply (pl_fold _ _ _ n _ k' _ _ _ G GO P).
Qed.
Lemma plain_of_lines w0 l o : lazy_mode o = false -> first_word w0 ->
  Forall (fun gw => indented (fst gw) /\ plain_word (snd gw)) l ->
  exists c, cow_str c = meaning w0 l /\
    yields (source w0 l) o (lone (TScalar c Plain) (List.length (source w0 l))).
Proof.
  intros NL ((A & W & C & c & r & -> & N) & FW) F. specialize (FW c r eq_refl).
  assert (AS : all_ascii (source (c :: r) l)).
  { unfold all_ascii, source. rewrite Forall_app. split; [exact A|].
    clear FW. induction F as [|[g w] l (G & AW & _) F IH]; [constructor|]. cbn. rewrite !Forall_app.
    split; [split; [apply spelled_ascii|exact AW]|exact IH]. }
  destruct (plain_alone (source (c :: r) l) o (meaning (c :: r) l) []) as (x & EX & Y); auto.
  - exists c, (r ++ flat_map (fun gw => spelled (fst gw) ++ snd gw) l). split; [reflexivity|].
    split; [apply white_none; [exact (Forall_inv W)|exact (Forall_inv A)]|].
    pose proof (Forall_inv C) as CC. cbn beta in CC. cbn in FW |- *. split; intros I; exfalso; intuition congruence.
  - intros (q & [E|E] & _); injection E as E _; apply FW; rewrite E; cbn; tauto.
  - apply plain_letters; auto. apply plain_lines, F.
  - constructor; reflexivity.
  - exists x. split; [exact EX|]. cbn [List.length] in Y. rewrite Nat.sub_0_r in Y. exact Y.
Qed.

(** ** As claimed *)
Lemma plain_streams (t : str) (o : flags) : well_formed t ->
  forall s l x e c, consumes (open t o) s = (l, x) -> In e l -> e_wrap e = Tok (TScalar c Plain) ->
    exists n flow indent k r, plain flow indent k (skipn n t) (cow_str c) r /\
      goes_on flow 0 k (skipn n t) /\ ~ white (skipn n t) /\
      (no_verbatim_tag t -> (exists line, reads t stats0 (skipn n t) (mkStats n line k)) /\ r = skipn (e_read e) t).
Proof.
  intros W s l x e c C IN E.
  destruct (stream_plain t o s l x e c) as (n & flow & indent & k & r & _ & P & G & NW & R & P2 & _); auto.
  { apply valid_iff, W. }
  exists n, flow, indent, k, r. split; [exact P|]. split; [exact G|]. split; [exact NW|].
  intros NV. apply no_verbatim_exactly in NV. auto.
Qed.


(** ** Trimming *)
Lemma encode_last c s : scalar_value c -> ~ white (encode c ++ s) -> trimmed (encode c).
Proof.
  intros SC NW. destruct (c <? 128)%N eqn:L.
  - assert (L' : (c < 128)%N) by lia. rewrite (ContentFacts.encode_ascii c L') in *. exists [], c. split; [reflexivity|].
    cbn [app] in NW. intros [<-|[<-|[<-|[<-|[]]]]]; apply NW.
    + left. exists 32%N, s. unfold blank. auto.
    + left. exists 9%N, s. unfold blank. auto.
    + right. discriminate.
    + right. destruct s as [|d s]; [discriminate|]. cbn. destruct (d =? 10)%N; discriminate.
  - assert (G : forall x : N, ~ In (128 + x mod 64)%N [32; 9; 10; 13]%N).
    { intros x. generalize (x mod 64)%N. intros y [H|[H|[H|[H|[]]]]]; lia. }
    unfold encode. rewrite L. destruct (c <? 2048)%N; [|destruct (c <? 65536)%N].
    + exists [(192 + c / 64)%N], (128 + c mod 64)%N. split; [reflexivity|apply G].
    + exists [(224 + c / 4096)%N; (128 + c / 64 mod 64)%N], (128 + c mod 64)%N. split; [reflexivity|apply G].
    + exists [(240 + c / 262144)%N; (128 + c / 4096 mod 64)%N; (128 + c / 64 mod 64)%N], (128 + c mod 64)%N. split; [reflexivity|apply G].
Qed.
Lemma trimmed_app a v : trimmed v -> trimmed (a ++ v).
Proof. intros (b & c & -> & N). exists (a ++ b), c. split; [apply app_assoc|exact N]. Qed.
Lemma plain_trimmed flow indent k s v r : plain flow indent k s v r ->
  (v = [] \/ trimmed v) /\ (s <> [] -> ~ white s -> ~ closed flow s -> trimmed v).
Proof.
  induction 1 as [k s E|k n s k' s' W SP NG|k c s v r SC NW NC P [IH _]|k g k' s v r NE SP GO P [_ IH]|k n s k' s' v r SP GO P [_ IH]].
  - split; [auto|]. intros A B C. tauto.
  - split; [auto|]. intros A B C. tauto.
  - assert (T : trimmed (encode c ++ v)).
    { destruct IH as [-> |T]; [rewrite app_nil_r; eapply encode_last; eassumption|apply trimmed_app, T]. }
    split; auto.
  - assert (T : trimmed (g ++ v)).
    { apply trimmed_app, IH; [apply GO|apply (space_stop _ _ _ _ _ SP)|apply GO]. }
    split; auto.
  - assert (T : trimmed (folded (S n) ++ v)).
    { apply trimmed_app, IH; [apply GO|apply (space_stop _ _ _ _ _ SP)|apply GO]. }
    split; auto.
Qed.
Lemma plain_streams_trimmed (t : str) (o : flags) : well_formed t ->
  forall s l x e c, consumes (open t o) s = (l, x) -> In e l -> e_wrap e = Tok (TScalar c Plain) -> trimmed (cow_str c).
Proof.
  intros W s l x e c C IN E. destruct (plain_streams t o W s l x e c C IN E) as (n & flow & indent & k & r & P & G & NW & _).
  destruct (plain_trimmed _ _ _ _ _ _ P) as [_ T]. apply T; [apply G|exact NW|apply G].
Qed.

(** ** Refutation *)
Lemma plain_accent : exists v, well_formed v /\ plain_start false v /\ plain false 1 0 v v [] /\
    forall o, lazy_mode o = false -> snd (consumes (open v o) [Fill; Fill]) = Panic.
Proof.
  exists [195; 169]%N. split; [apply valid_iff; reflexivity|]. split; [|split].
  - exists 195%N, [169%N]. split; [reflexivity|]. split; [apply not_white; reflexivity|].
    split; [cbn; intuition discriminate|cbn; intuition discriminate].
  - pose proof (pl_char false 1 0 233 [] [] []) as P. cbn in P. apply P.
    + unfold scalar_value. lia.
    + apply not_white. reflexivity.
    + apply not_closed. reflexivity.
    + apply pl_end. auto.
  - intros [[] []] H; try discriminate; vm_compute; reflexivity.
Qed.
Lemma plain_lookup t o : lazy_mode o = false -> all_ascii t -> plain_start false t -> ~ document_marker t ->
  forall v r, plain false 1 0 t v r -> skips false r [] ->
  exists c, cow_str c = v /\
    yields t o [mkEntry (Tok TStreamStart) 0; mkEntry (Tok (TScalar c Plain)) (List.length t - List.length r);
                mkEntry (Tok TStreamEnd) (List.length t)].
Proof. intros. eapply plain_alone; eassumption. Qed.
