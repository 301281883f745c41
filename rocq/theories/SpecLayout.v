(** Indentation: how the columns of a text decide about its block collections.  Nothing
    here refers to the scanner. *)
From Verif Require Export SpecQuoted SpecBlank.
Open Scope nat_scope.

(** The column of the place after the first [n] bytes of a text. *)
Definition in_column (t : str) (n c : nat) : Prop := exists line, position t n line c.
(** Two places on one line. *)
Definition on_one_line (t : str) (k n : nat) : Prop :=
  exists line c c', position t k line c /\ position t n line c'.
(** The text from a place on begins with a character. *)
Definition stands_at (t : str) (n : nat) (c : N) : Prop := exists r, skipn n t = c :: r.
(** [n] is the first place from [m] on where something other than white space and comments
    stands, or the end of the text. *)
Definition next_place (t : str) (m n : nat) : Prop :=
  skips false (skipn m t) (skipn n t) /\ m <= n <= List.length t.

(** What is open at some moment of a stream. *)
Record layout := Layout {
  begun_before : bool;          (* a block collection has been opened before *)
  blocks : list (nat * bool);   (* the open block collections, the innermost one first:
                                   the column, and whether it is a mapping *)
  flows : nat;                  (* the number of open flow collections *)
  starts : list nat;            (* where a key may begin: where nodes began, in a flow
                                   collection behind its bracket *)
  reached : nat                 (* the position reached *)
}.
Definition nothing_open : layout := Layout false [] 0 [] 0.

(** The column of the innermost block collection. *)
Definition innermost (l : list (nat * bool)) : nat := match l with (c, _) :: _ => c | [] => 0 end.
(** The innermost block collection is a sequence in the column of the mapping around it. *)
Definition zero_indented (l : list (nat * bool)) : Prop :=
  exists c l', l = (c, false) :: (c, true) :: l'.

(** What stands in column [c], at [n], may be part of the innermost block collection: it is
    not further to the left, and in the column of a sequence that is also the column of
    the mapping around it, it begins with a dash. *)
Definition stays (t : str) (l : list (nat * bool)) (n c : nat) : Prop :=
  innermost l <= c /\ (zero_indented l -> c = innermost l -> stands_at t n 45).

(** A block collection may be opened in column [c] if it is the first one, or further to
    the right than the innermost one that is open.  A sequence may also be opened in the
    column of the mapping around it.  When all collections have been closed again, the
    first column counts as taken. *)
Definition deeper (u : bool) (l : list (nat * bool)) (map : bool) (c : nat) : Prop :=
  match l with
  | (c0, m0) :: _ => c0 < c \/ c = c0 /\ map = false /\ m0 = true
  | [] => u = true -> 0 < c
  end.
(** An entry in column [c] that opens no collection belongs to the innermost one, and a
    dash to a sequence.  If there is none, it stands in the first column. *)
Definition belongs (u : bool) (l : list (nat * bool)) (map : bool) (c : nat) : Prop :=
  match l with
  | (c0, m0) :: _ => c = c0 /\ (map = false -> m0 = false)
  | [] => u = true /\ c = 0
  end.
Definition block_opener (map : bool) : token := if map then TBlockMappingStart else TBlockSequenceStart.
(** [enters t u l map n es u' l']: an entry at [n] belongs to what is open, or a block
    collection is opened there. *)
Inductive enters (t : str) (u : bool) (l : list (nat * bool)) (map : bool) (n : nat)
  : list entry -> bool -> list (nat * bool) -> Prop :=
| en_here c : in_column t n c -> stays t l n c -> belongs u l map c -> enters t u l map n [] u l
| en_open c : in_column t n c -> stays t l n c -> deeper u l map c ->
    enters t u l map n [mkEntry (Tok (block_opener map)) n] true ((c, map) :: l).

(** The document is over. *)
Definition document_over (t : str) (n : nat) : Prop :=
  skipn n t = [] \/ in_column t n 0 /\ (stands_at t n 37 \/ document_marker (skipn n t)).
(** Why a block collection is closed at [n]: what follows stands further to the left, or
    the document is over, or it is a sequence in the column of the mapping around it and
    what follows begins with no dash. *)
Definition closes_at (t : str) (f : nat) (c : nat) (map : bool) (l : list (nat * bool)) (n : nat) : Prop :=
  f = 0 /\ (exists c', in_column t n c' /\ c' < c) \/
  f = 0 /\ document_over t n \/
  zero_indented ((c, map) :: l) /\ ~ stands_at t n 45.

(** Tokens before which the block collections are closed. *)
Definition between_documents (m : marker) : bool :=
  match m with
  | MDocumentStart | MDocumentEnd | MVersionDirective | MTagDirective => true
  | _ => false
  end.
(** Tokens with content, separators of flow collections, directives and document markers. *)
Definition token_of_content (m : marker) : bool :=
  match m with
  | MFlowEntry | MAlias | MAnchor | MTag | MScalar => true
  | m => between_documents m
  end.
Definition flow_opener (map : bool) : token := if map then TFlowMappingStart else TFlowSequenceStart.
Definition flow_closer (map : bool) : token := if map then TFlowMappingEnd else TFlowSequenceEnd.

(** A key without question mark begins where a node began, on the line of the colon at [n]
    and at most 1024 bytes before it. *)
Definition key_begins (t : str) (ks : list nat) (k n : nat) : Prop :=
  In k ks /\ k <= n <= k + N.to_nat 1024 /\ on_one_line t k n.

(** [found P t s es s']: the next tokens found in the text are [es].  [P] says what is
    known of a token with content: its place and column, and what is open around it. *)
Inductive found (P : layout -> nat -> nat -> entry -> Prop) (t : str) : layout -> list entry -> layout -> Prop :=
| fd_stream_start u l f ks m :
    found P t (Layout u l f ks m) [mkEntry (Tok TStreamStart) 0] (Layout u l f ks m)
| fd_stream_end u l f ks m n : next_place t m n -> skipn n t = [] -> (f = 0 -> l = []) ->
    found P t (Layout u l f ks m) [mkEntry (Tok TStreamEnd) n] (Layout u l f ks n)
| fd_content u l f ks m n c e : next_place t m n -> n <= e_read e -> in_column t n c -> token_of_content (e_marker e) = true ->
    (f = 0 -> stays t l n c) -> (f = 0 -> between_documents (e_marker e) = true -> l = []) ->
    P (Layout u l f ks m) n c e ->
    found P t (Layout u l f ks m) [e] (Layout u l f (n :: ks) (e_read e))
| fd_flow_open u l f ks m n c (map : bool) : next_place t m n -> stands_at t n (if map then 123 else 91) ->
    in_column t n c -> (f = 0 -> stays t l n c) ->
    found P t (Layout u l f ks m) [mkEntry (Tok (flow_opener map)) (n + 1)] (Layout u l (S f) (n + 1 :: ks) (n + 1))
| fd_flow_close u l f ks m n (map : bool) : next_place t m n -> stands_at t n (if map then 125 else 93) ->
    found P t (Layout u l (S f) ks m) [mkEntry (Tok (flow_closer map)) (n + 1)] (Layout u l f ks (n + 1))
| fd_dash u l ks m n es u' l' : next_place t m n -> stands_at t n 45 -> enters t u l false n es u' l' ->
    found P t (Layout u l 0 ks m) (es ++ [mkEntry (Tok TBlockEntry) (n + 1)]) (Layout u' l' 0 ks (n + 1))
| fd_question u l ks m n es u' l' : next_place t m n -> stands_at t n 63 -> enters t u l true n es u' l' ->
    found P t (Layout u l 0 ks m) (es ++ [mkEntry (Tok TKey) (n + 1)]) (Layout u' l' 0 ks (n + 1))
| fd_question_flow u l f ks m n : next_place t m n -> stands_at t n 63 ->
    found P t (Layout u l (S f) ks m) [mkEntry (Tok TKey) (n + 1)] (Layout u l (S f) ks (n + 1))
| fd_implicit u l ks m k n es u' l' : next_place t m n -> key_begins t ks k n -> stands_at t n 58 -> enters t u l true k es u' l' ->
    found P t (Layout u l 0 ks m) (es ++ [mkEntry (Tok TKey) k; mkEntry (Tok TValue) (n + 1)]) (Layout u' l' 0 ks (n + 1))
| fd_implicit_flow u l f ks m k n : next_place t m n -> key_begins t ks k n -> stands_at t n 58 ->
    found P t (Layout u l (S f) ks m) [mkEntry (Tok TKey) k; mkEntry (Tok TValue) (n + 1)] (Layout u l (S f) ks (n + 1))
| fd_value u l ks m n es u' l' : next_place t m n -> stands_at t n 58 -> enters t u l true n es u' l' ->
    found P t (Layout u l 0 ks m) (es ++ [mkEntry (Tok TValue) (n + 1)]) (Layout u' l' 0 ks (n + 1))
| fd_value_flow u l f ks m n : next_place t m n -> stands_at t n 58 ->
    found P t (Layout u l (S f) ks m) [mkEntry (Tok TValue) (n + 1)] (Layout u l (S f) ks (n + 1))
| fd_close u c map l f ks m n : next_place t m n -> closes_at t f c map l n ->
    found P t (Layout u ((c, map) :: l) f ks m) [mkEntry (Tok TBlockEnd) n] (Layout u l f ks n).

(** A list of tokens in the order in which they are found. *)
Inductive laid_out (P : layout -> nat -> nat -> entry -> Prop) (t : str) : layout -> list entry -> layout -> Prop :=
| lo_none s : laid_out P t s [] s
| lo_next s es s1 fs s2 : found P t s es s1 -> laid_out P t s1 fs s2 -> laid_out P t s (es ++ fs) s2.

(** [l] is [h] in the order of the positions; tokens at one position keep their order. *)
Definition sorted_by_position (h l : list entry) : Prop :=
  in_order l /\ forall m, filter (fun e => Nat.eqb (e_read e) m) l = filter (fun e => Nat.eqb (e_read e) m) h.
