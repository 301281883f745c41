(** Documents: a part of the YAML language, and the events a document stands for.
    Nothing here refers to the scanner or the parser. *)
From Verif Require Export SpecPlain SpecPos SpecBlank Event.
From Verif Require Import SpecUri SpecNames SpecBlock.
Open Scope nat_scope.

(** A node: its placement, its anchor and its tag (handle and suffix), if any. *)
Record about := mkAbout { a_kind : node_kind; a_anchor : option str; a_tag : option (str * str) }.
Definition bare (k : node_kind) : about := mkAbout k None None.
Definition plainly (ab : about) : Prop := a_anchor ab = None /\ a_tag ab = None.
(** A scalar does not show the tag [!], which only says that there is no other tag. *)
Definition scalar_about (ab : about) : about :=
  match a_tag ab with
  | Some (h, s) => if str_eqb h (bytes "!") && is_empty s then mkAbout (a_kind ab) (a_anchor ab) None else ab
  | None => ab
  end.

(** What a stream says: scalars with their text, collections, aliases and documents, which
    have a version and the prefixes of tag handles and may lack markers. *)
Inductive deed :=
| Begin (version : N * N) (tags : list (str * str)) (implicit : bool)
| Finish (implicit : bool)
| Text (n : about) (v : str) (style : scalar_style)
| OpenSeq (n : about) | CloseSeq
| OpenMap (n : about) | CloseMap
| Alias (name : str).
(** A node without content. *)
Definition nothing (ab : about) : deed := Text (scalar_about ab) [] Plain.

(** ** Places *)
(** The text from a place on, and the position of the place. *)
Definition place := (str * stats)%type.
Definition text (p : place) : str := fst p.
Definition offset (p : place) : nat := sread (snd p).
Definition line (p : place) : nat := slines (snd p).
Definition column (p : place) : nat := scol (snd p).
Definition beginning (t : str) : place := (t, mkStats 0 0 0).

Definition moves (p p' : place) : Prop := reads (fst p) (snd p) (fst p') (snd p').
(** All white space and comments, of any number of lines. *)
Definition apart (p p' : place) : Prop := skips false (text p) (text p') /\ moves p p'.
(** One character that is no line break. *)
Definition char (c : N) (p p' : place) : Prop :=
  text p = c :: text p' /\ snd p' = mkStats (S (offset p)) (line p) (S (column p)).
Definition begins (c : N) (p : place) : Prop := exists r, text p = c :: r.
Definition loose (p : place) : Prop := text p = [] \/ white (text p).
(** The indicators of a sequence entry, of an explicit key and of its value. *)
Definition dash (p p' : place) : Prop := char 45 p p' /\ loose p'.
Definition question (p p' : place) : Prop := char 63 p p' /\ loose p'.
Definition colon (p p' : place) : Prop := char 58 p p' /\ loose p'.

(** ** Scalars *)
(** Quoted or plain.  Within a flow collection a plain scalar may not begin with [?]
    or [:]. *)
Inductive scalar (flow : bool) (indent : nat) (p : place) : str -> scalar_style -> place -> Prop :=
| sc_quoted single s v p' :
    text p = quote_of single :: s -> quoted single s v (text p') -> moves p p' ->
    scalar flow indent p v (style_of single) p'
| sc_plain v p' :
    plain_start flow (text p) -> (flow = true -> ~ begins 63 p /\ ~ begins 58 p) ->
    ~ (column p = 0 /\ document_marker (text p)) ->
    plain flow indent (column p) (text p) v (text p') -> moves p p' ->
    scalar flow indent p v Plain p'.

(** ** Anchors, aliases and tags *)
(** [&name] and [*name]; a character of a short list must follow. *)
Definition node_name (alias : bool) (p : place) (a : str) (p' : place) : Prop :=
  text p = indicator alias :: a ++ text p' /\ a <> [] /\ Forall alphanumeric a /\
  (exists c, In c after_name /\ begins c p') /\ moves p p'.

Section Nodes.
  (** The tag handles a document may use. *)
  Variable handles : str -> Prop.

  (** A handle, which may be [!], [!!] or [!name!], and the spelling of the suffix.
      With the handle [!], the suffix must not look like the end of another handle. *)
  Definition node_tag (p : place) (h s : str) (p' : place) : Prop :=
    exists t, text p = h ++ t ++ text p' /\ SpecUri.spelled false t s /\ uri_stop false (text p') /\
      (full_handle h \/
       h = bytes "!" /\ ~ begins 60 p' /\ forall a r, t ++ text p' = a ++ 33%N :: r -> ~ Forall alphanumeric a) /\
      handles h /\ moves p p'.

  Inductive prop := Anchor (a : str) | Tag (h s : str).
  Definition prop_at (m : prop) (p p' : place) : Prop :=
    match m with Anchor a => node_name false p a p' | Tag h s => node_tag p h s p' end.
  (** Properties one after another, each at a place that [fits]. *)
  Inductive prop_list (fits : place -> Prop) : place -> list prop -> place -> Prop :=
  | pr_nil p : prop_list fits p [] p
  | pr_cons p p0 m p1 ms p' :
      apart p p0 -> fits p0 -> prop_at m p0 p1 -> prop_list fits p1 ms p' -> prop_list fits p (m :: ms) p'.
  (** At most one anchor and one tag, in any order. *)
  Inductive gathered (k : node_kind) : list prop -> about -> Prop :=
  | ga_none : gathered k [] (bare k)
  | ga_anchor a : gathered k [Anchor a] (mkAbout k (Some a) None)
  | ga_tag h s : gathered k [Tag h s] (mkAbout k None (Some (h, s)))
  | ga_anchor_tag a h s : gathered k [Anchor a; Tag h s] (mkAbout k (Some a) (Some (h, s)))
  | ga_tag_anchor a h s : gathered k [Tag h s; Anchor a] (mkAbout k (Some a) (Some (h, s))).
  Definition props (fits : place -> Prop) (k : node_kind) (p : place) (ab : about) (p' : place) : Prop :=
    exists ms, prop_list fits p ms p' /\ gathered k ms ab.
  Definition anywhere (p : place) : Prop := True.

  (** A scalar that is no block scalar, or an alias, which has no properties. *)
  Inductive atom (flow : bool) (indent : nat) (ab : about) (p : place) : deed -> place -> Prop :=
  | at_scalar v style p' : scalar flow indent p v style p' ->
      atom flow indent ab p (Text (scalar_about ab) v style) p'
  | at_alias a p' : plainly ab -> node_name true p a p' -> atom flow indent ab p (Alias a) p'.

  (** A scalar or alias with its properties and a colon, all on one line, the colon not
      more than 1024 bytes from the beginning. *)
  Definition key (flow : bool) (indent : nat) (p : place) (d : deed) (p' : place) : Prop :=
    exists ab p1 p2 p3 p4, props anywhere Key p ab p1 /\ apart p1 p2 /\ atom flow indent ab p2 d p3 /\
      apart p3 p4 /\ line p4 = line p /\ (N.of_nat (offset p4) <= N.of_nat (offset p) + 1024)%N /\
      char 58 p4 p' /\ (flow = false -> loose p').

  (** ** Flow collections *)
  (** Where the next entry, the end of a collection or the colon of an explicit key is. *)
  Definition separated (p : place) : Prop :=
    exists p0, apart p p0 /\ (begins 44 p0 \/ begins 93 p0 \/ begins 125 p0 \/ begins 58 p0).
  Definition closed (e : list deed) : Prop := exists d, e = d ++ [CloseSeq] \/ e = d ++ [CloseMap].
  (** A node; its content; a sequence from within, a mapping from within (the flag tells
      whether an entry may follow at once); a node or nothing; a pair from behind [?]. *)
  Inductive flow_node : node_kind -> place -> list deed -> place -> Prop :=
  | fn_body k ab p p1 e p' : props anywhere k p ab p1 -> flow_body ab p1 e p' -> flow_node k p e p'
  | fn_nothing k ab p p' : props anywhere k p ab p' -> ~ plainly ab -> separated p' ->
      flow_node k p [nothing ab] p'
  with flow_body : about -> place -> list deed -> place -> Prop :=
  | fb_atom ab p p0 d p' : apart p p0 -> atom true 0 ab p0 d p' -> flow_body ab p [d] p'
  | fb_seq ab p p0 p1 e p' :
      apart p p0 -> char 91 p0 p1 -> flow_seq true p1 e p' -> flow_body ab p (OpenSeq ab :: e) p'
  | fb_map ab p p0 p1 e p' :
      apart p p0 -> char 123 p0 p1 -> flow_map true p1 e p' -> flow_body ab p (OpenMap ab :: e) p'
  with flow_seq : bool -> place -> list deed -> place -> Prop :=
  | fs_end f p p0 p' : apart p p0 -> char 93 p0 p' -> flow_seq f p [CloseSeq] p'
  | fs_comma p p0 p1 e p' :
      apart p p0 -> char 44 p0 p1 -> flow_seq true p1 e p' -> flow_seq false p e p'
  | fs_entry p d p1 e p' :
      flow_node Entry p d p1 -> flow_seq false p1 e p' -> flow_seq true p (d ++ e) p'
  | fs_pair p p0 x p1 d p2 e p' :
      apart p p0 -> key true 0 p0 x p1 -> flow_slot Value p1 d p2 -> flow_seq false p2 e p' ->
      flow_seq true p (OpenMap (bare Entry) :: x :: d ++ CloseMap :: e) p'
  | fs_question p p0 p1 d p2 e p' :
      apart p p0 -> char 63 p0 p1 -> flow_question p1 d p2 -> flow_seq false p2 e p' ->
      flow_seq true p (OpenMap (bare Entry) :: d ++ CloseMap :: e) p'
  with flow_map : bool -> place -> list deed -> place -> Prop :=
  | fm_end f p p0 p' : apart p p0 -> char 125 p0 p' -> flow_map f p [CloseMap] p'
  | fm_comma p p0 p1 e p' :
      apart p p0 -> char 44 p0 p1 -> flow_map true p1 e p' -> flow_map false p e p'
  | fm_key p d p1 e p' :
      flow_node Key p d p1 -> flow_map false p1 e p' ->
      flow_map true p (d ++ nothing (bare Value) :: e) p'
  | fm_pair p p0 x p1 d p2 e p' :
      apart p p0 -> key true 0 p0 x p1 -> flow_slot Value p1 d p2 -> flow_map false p2 e p' ->
      flow_map true p (x :: d ++ e) p'
  | fm_question p p0 p1 d p2 e p' :
      apart p p0 -> char 63 p0 p1 -> flow_question p1 d p2 -> flow_map false p2 e p' ->
      flow_map true p (d ++ e) p'
  with flow_slot : node_kind -> place -> list deed -> place -> Prop :=
  | fo_node k p d p' : flow_node k p d p' -> flow_slot k p d p'
  | fo_absent k p : separated p -> flow_slot k p [nothing (bare k)] p
  (** An explicit key that has a value is a collection or ends on the line of [?]. *)
  with flow_question : place -> list deed -> place -> Prop :=
  | fq_value p d p1 p2 p3 v p' :
      flow_slot Key p d p1 -> closed d \/ line p1 = line p -> apart p1 p2 -> char 58 p2 p3 ->
      flow_slot Value p3 v p' -> flow_question p (d ++ v) p'
  | fq_alone p d p' : flow_slot Key p d p' -> flow_question p (d ++ [nothing (bare Value)]) p'.

  (** ** Block collections *)
  (** The column of the innermost block collection, [None] outside of all of them. *)
  Definition deeper (cur : option nat) (k : nat) : Prop := match cur with Some n => n < k | None => True end.
  Definition indent_of (cur : option nat) : nat := match cur with Some n => n + 1 | None => 1 end.
  Definition parent_of (cur : option nat) : nat := match cur with Some n => n | None => 0 end.
  Definition within_column (cur : option nat) (p : place) : Prop := deeper cur (column p).

  (** The content of a scalar, an alias or a flow collection.  The flag says that it is a
      block scalar: behind one, the place may be anywhere in its line. *)
  Inductive leaf_body (cur : option nat) (ab : about) : place -> list deed -> place -> bool -> Prop :=
  | lb_atom p p0 d p' :
      apart p p0 -> deeper cur (column p0) -> atom false (indent_of cur) ab p0 d p' ->
      leaf_body cur ab p [d] p' false
  | lb_seq p p0 p1 e p' :
      apart p p0 -> deeper cur (column p0) -> char 91 p0 p1 -> flow_seq true p1 e p' ->
      leaf_body cur ab p (OpenSeq ab :: e) p' false
  | lb_map p p0 p1 e p' :
      apart p p0 -> deeper cur (column p0) -> char 123 p0 p1 -> flow_map true p1 e p' ->
      leaf_body cur ab p (OpenMap ab :: e) p' false
  (** A block scalar with some character that is no line feed.  A single line at the end
      of the text, whose line feed gets lost, is left out. *)
  | lb_block fold p p0 b v p' :
      apart p p0 -> deeper cur (column p0) -> text p0 = block_indicator fold :: b ->
      (forall x, b <> 35%N :: x) -> block fold (parent_of cur) b v (text p') ->
      (exists c, In c v /\ c <> 10%N) -> line_feeds_only (text p0) ->
      (text p' = [] -> forall y, ~ last_line b y) -> moves p0 p' -> line p0 < line p' ->
      leaf_body cur ab p [Text (scalar_about ab) v (if fold then Folded else Literal)] p' true.

  (** The next entry begins on a new line. *)
  Definition new_line (f : bool) (p p' : place) : Prop := f = true \/ line p < line p'.

  (** The content of a node; a sequence from behind the dash of an entry, the entry; a
      mapping from behind the colon of a key, from behind [?], and behind a pair; a value
      or an explicit key; a sequence in the column of the mapping it is a value of, and its
      entry.  [ex]: behind the colon of an explicit key or [?]; there a block collection may
      begin on the same line. *)
  Inductive block_body : option nat -> about -> place -> list deed -> place -> bool -> Prop :=
  | bb_leaf cur ab p e p' f : leaf_body cur ab p e p' f -> block_body cur ab p e p' f
  | bb_seq cur ab p p0 p1 e p' f :
      apart p p0 -> plainly ab \/ line p < line p0 -> deeper cur (column p0) -> dash p0 p1 ->
      block_seq (column p0) p1 e p' f -> block_body cur ab p (OpenSeq ab :: e) p' f
  | bb_map cur ab p p0 d p1 e p' f :
      apart p p0 -> plainly ab \/ line p < line p0 -> deeper cur (column p0) ->
      key false (indent_of cur) p0 d p1 ->
      block_map false (column p0) p1 e p' f -> block_body cur ab p (OpenMap ab :: d :: e) p' f
  | bb_question cur ab p p0 p1 e p' f :
      apart p p0 -> plainly ab \/ line p < line p0 -> deeper cur (column p0) -> question p0 p1 ->
      block_question (column p0) p1 e p' f -> block_body cur ab p (OpenMap ab :: e) p' f
  with block_seq : nat -> place -> list deed -> place -> bool -> Prop :=
  | bs_last n p d p' f : block_entry n p d p' f -> block_seq n p (d ++ [CloseSeq]) p' f
  | bs_more n p d p1 f1 p2 p3 e p' f :
      block_entry n p d p1 f1 -> apart p1 p2 -> new_line f1 p1 p2 -> column p2 = n -> dash p2 p3 ->
      block_seq n p3 e p' f -> block_seq n p (d ++ e) p' f
  with block_entry : nat -> place -> list deed -> place -> bool -> Prop :=
  | be_node n ab p p1 d p' f :
      props (within_column (Some n)) Entry p ab p1 -> block_body (Some n) ab p1 d p' f ->
      block_entry n p d p' f
  | be_absent n ab p p1 p0 :
      props (within_column (Some n)) Entry p ab p1 -> apart p1 p0 -> text p0 = [] \/ column p0 <= n ->
      block_entry n p [nothing ab] p1 false
  with block_map : bool -> nat -> place -> list deed -> place -> bool -> Prop :=
  | bm_value ex n p d p1 f1 e p' f :
      block_value Value ex n p d p1 f1 -> block_pairs n p1 f1 e p' f -> block_map ex n p (d ++ e) p' f
  with block_question : nat -> place -> list deed -> place -> bool -> Prop :=
  | bq_value n p d p1 f1 p2 p3 e p' f :
      block_value Key true n p d p1 f1 -> apart p1 p2 -> new_line f1 p1 p2 -> column p2 = n ->
      colon p2 p3 -> block_map true n p3 e p' f -> block_question n p (d ++ e) p' f
  | bq_alone n p d p1 f1 e p' f :
      block_value Key true n p d p1 f1 -> block_pairs n p1 f1 e p' f ->
      block_question n p (d ++ nothing (bare Value) :: e) p' f
  with block_pairs : nat -> place -> bool -> list deed -> place -> bool -> Prop :=
  | bp_end n p f : block_pairs n p f [CloseMap] p f
  | bp_key n p f p1 x p2 e p' f' :
      apart p p1 -> new_line f p p1 -> column p1 = n -> key false (indent_of (Some n)) p1 x p2 ->
      block_map false n p2 e p' f' -> block_pairs n p f (x :: e) p' f'
  | bp_question n p f p1 p2 e p' f' :
      apart p p1 -> new_line f p p1 -> column p1 = n -> question p1 p2 ->
      block_question n p2 e p' f' -> block_pairs n p f e p' f'
  with block_value : node_kind -> bool -> nat -> place -> list deed -> place -> bool -> Prop :=
  | bv_leaf k ex n ab p p1 d p' f :
      props (within_column (Some n)) k p ab p1 -> leaf_body (Some n) ab p1 d p' f ->
      block_value k ex n p d p' f
  | bv_below k (ex : bool) n ab p p1 p0 d p' f :
      props (within_column (Some n)) k p ab p1 -> apart p1 p0 -> ex = true \/ line p1 < line p0 ->
      block_body (Some n) ab p1 d p' f -> block_value k ex n p d p' f
  | bv_zero k ex n ab p p1 p0 p2 e p' f :
      props (within_column (Some n)) k p ab p1 -> apart p1 p0 -> line p1 < line p0 -> column p0 = n ->
      dash p0 p2 -> zero_seq n p2 e p' f -> block_value k ex n p (OpenSeq ab :: e) p' f
  | bv_absent k ex n ab p p1 p0 :
      props (within_column (Some n)) k p ab p1 -> apart p1 p0 ->
      text p0 = [] \/ column p0 < n \/ (column p0 = n /\ forall q, ~ dash p0 q) ->
      block_value k ex n p [nothing ab] p1 false
  with zero_seq : nat -> place -> list deed -> place -> bool -> Prop :=
  | zs_last n p d p' f p0 : zero_entry n p d p' f -> apart p' p0 ->
      (column p0 = n -> begins 45 p0 -> n = 0 /\ document_marker (text p0)) ->
      zero_seq n p (d ++ [CloseSeq]) p' f
  | zs_more n p d p1 f1 p2 p3 e p' f :
      zero_entry n p d p1 f1 -> apart p1 p2 -> new_line f1 p1 p2 -> column p2 = n -> dash p2 p3 ->
      zero_seq n p3 e p' f -> zero_seq n p (d ++ e) p' f
  (** The entry has its properties and begins its content on the line of its dash, and
      does not leave it if it is a flow collection. *)
  with zero_entry : nat -> place -> list deed -> place -> bool -> Prop :=
  | ze_node n ab p p1 p0 d p' f :
      props (fun q => line q = line p) Entry p ab p1 -> apart p1 p0 -> line p0 = line p ->
      (begins 91 p0 \/ begins 123 p0 -> line p' = line p) ->
      block_body (Some n) ab p1 d p' f -> zero_entry n p d p' f
  | ze_absent n ab p p1 p0 :
      props (fun q => line q = line p) Entry p ab p1 -> apart p1 p0 -> text p0 = [] \/ column p0 <= n ->
      zero_entry n p [nothing ab] p1 false.

  (** ** Contents of documents *)
  (** What counts as the column of a collection around a document: once there was a block
      collection in the stream, documents must be indented. *)
  Definition around (used : bool) : option nat := if used then Some 0 else None.
  (** A document from a place on.  [start]: at the beginning of the stream; a block
      collection may not begin on the line of a marker.  The last flag tells whether there
      was a block collection. *)
  Inductive content (start used : bool) (p : place) : list deed -> place -> bool -> Prop :=
  | cn_leaf ab p1 e p' f :
      props (within_column (around used)) Root p ab p1 -> leaf_body (around used) ab p1 e p' f ->
      content start used p e p' used
  | cn_block ab p1 p0 e p' f :
      props (within_column (around used)) Root p ab p1 -> apart p1 p0 -> start = true \/ line p < line p0 ->
      block_body (around used) ab p1 e p' f ->
      content start used p e p' true
  | cn_nothing ab p' : props (within_column (around used)) Root p ab p' -> ~ plainly ab ->
      content start used p [nothing ab] p' used.
End Nodes.

(** ** Streams *)
(** [---] or [...] at the beginning of a line, with white space or nothing behind it. *)
Definition document_mark (c : N) (p p' : place) : Prop :=
  column p = 0 /\ text p = [c; c; c] ++ text p' /\ loose p' /\ snd p' = mkStats (3 + offset p) (line p) 3.
Inductive directive := Version (major minor : N) | TagPrefix (handle prefix : str).
(** [%YAML 1.2] and [%TAG !e! prefix] at the beginning of a line. *)
Inductive directive_at (p : place) : directive -> place -> Prop :=
| dr_version w d1 d2 a b p' :
    column p = 0 -> text p = yaml ++ w ++ d1 ++ 46%N :: d2 ++ text p' -> w <> [] -> spaces w ->
    version_number d1 a -> version_number d2 b -> ends digit (text p') -> moves p p' ->
    directive_at p (Version a b) p'
| dr_tag w1 h w2 t s c r p' :
    column p = 0 -> text p = bytes "%TAG" ++ w1 ++ h ++ w2 ++ t ++ text p' -> w1 <> [] -> blanks w1 ->
    full_handle h -> w2 <> [] -> blanks w2 -> SpecUri.spelled false t s -> t <> [] ->
    text p' = c :: r -> In c [32; 9; 10; 13]%N -> moves p p' ->
    directive_at p (TagPrefix h s) p'.
Inductive directive_list : place -> list directive -> place -> Prop :=
| dl_nil p : directive_list p [] p
| dl_cons p p0 d p1 ds p' : apart p p0 -> directive_at p0 d p1 -> directive_list p1 ds p' -> directive_list p (d :: ds) p'.

(** The version and the tag prefixes of a document: at most one version is given and no
    handle twice, nor one of the default handles. *)
Definition default_prefixes : list (str * str) :=
  [(bytes "!", bytes "!"); (bytes "!!", bytes "tag:yaml.org,2002:")].
Definition given_versions (ds : list directive) : list (N * N) :=
  flat_map (fun d => match d with Version a b => [(a, b)] | _ => [] end) ds.
Definition prefixes (ds : list directive) : list (str * str) :=
  default_prefixes ++ flat_map (fun d => match d with TagPrefix h s => [(h, s)] | _ => [] end) ds.
Definition consistent (ds : list directive) : Prop :=
  List.length (given_versions ds) <= 1 /\ NoDup (map fst (prefixes ds)).
Definition begin_of (ds : list directive) (implicit : bool) : deed :=
  Begin (hd (1, 2)%N (given_versions ds)) (prefixes ds) implicit.
Definition handles_of (ds : list directive) (h : str) : Prop := In h (map fst (prefixes ds)).

(** The rest of a stream.  [bare]: a document may begin without [---], and directives may
    be given, at the beginning and after [...]; [first]: there was no document yet. *)
Inductive documents : bool -> bool -> bool -> place -> list deed -> Prop :=
| dn_end bare used p : skips false (text p) [] -> documents bare false used p []
| dn_empty bare used p : skips false (text p) [] ->
    documents bare true used p [begin_of [] true; Finish true]
| dn_bare first used p e p' used' r :
    content (handles_of []) first used p e p' used' -> document_end used' p' r ->
    documents true first used p (begin_of [] true :: e ++ r)
| dn_explicit (bare first used : bool) p ds p1 p2 p3 e p' used' r :
    bare = true \/ ds = [] -> directive_list p ds p1 -> consistent ds -> apart p1 p2 -> document_mark 45 p2 p3 ->
    (e = [] /\ p' = p3 /\ used' = used \/ content (handles_of ds) false used p3 e p' used') ->
    document_end used' p' r ->
    documents bare first used p (begin_of ds false :: e ++ r)
with document_end : bool -> place -> list deed -> Prop :=
| de_explicit used p p0 p' r : apart p p0 -> document_mark 46 p0 p' -> documents true false used p' r ->
    document_end used p (Finish false :: r)
| de_implicit used p r : documents false false used p r -> document_end used p (Finish true :: r).

(** A text and what it says. *)
Definition stream (t : str) (e : list deed) : Prop := documents true true false (beginning t) e.

(** What an event shows. *)
Definition tag_shown (t : cow * cow) : str * str := (cow_str (fst t), cow_str (snd t)).
Definition node_about (n : node) : about :=
  mkAbout (n_kind n) (option_map cow_str (n_anchor n)) (option_map tag_shown (n_tag n)).
Definition shows (e : event_data) : option deed :=
  match e with
  | EvScalar n (Eager c style) => Some (Text (node_about n) (cow_str c) style)
  | EvSequenceStart n => Some (OpenSeq (node_about n))
  | EvSequenceEnd => Some CloseSeq
  | EvMappingStart n => Some (OpenMap (node_about n))
  | EvMappingEnd => Some CloseMap
  | EvAlias a => Some (Alias (cow_str a))
  | EvDocumentStart d implicit => Some (Begin (d_version d) (map tag_shown (d_tags d)) implicit)
  | EvDocumentEnd implicit => Some (Finish implicit)
  | _ => None
  end.
