(** Token streams as a consumer of a reader sees them. *)
From Verif Require Export Reader.

(** The consumer of a borrowed text asks the reader to scan ([Fill]) and takes tokens
    from its queue ([Pull]), in any order, until an error.  The answer: the tokens
    taken, and the outcome of the last request. *)
Inductive request := Fill | Pull.
Fixpoint consumes (r : reader) (s : list request) : list entry * rres reader :=
  match s with
  | [] => ([], Ok r)
  | Fill :: s =>
      match reader_scan r with
      | (r', Ok _) => consumes r' s
      | (_, Err e) => ([], Err e)
      | (_, Panic) => ([], Panic)
      | (_, Fuel) => ([], Fuel)
      end
  | Pull :: s =>
      let (e, q) := q_pop entry_cmp (r_q r) in
      let (l, x) := consumes (mkReader (r_sc r) q (r_opts r) (r_exhausted r) (r_in r)) s in
      (match e with Some e => e :: l | None => l end, x)
  end.
Definition open (t : str) (o : flags) : reader := reader_new (Borrow t) o.

(** Tokens scanned and not yet taken. *)
Definition pending (r : reader) : list entry := map snd (q_heap (r_q r)).

(** Tokens in the order of their positions. *)
Definition in_order (l : list entry) : Prop :=
  forall a x b y c, l = a ++ x :: b ++ y :: c -> e_read x <= e_read y.

(** The number of tokens of a kind. *)
Definition count (f : marker -> bool) (l : list entry) : nat :=
  List.length (filter (fun e => f (e_marker e)) l).
Definition block_open (m : marker) : bool :=
  match m with MBlockSequenceStart | MBlockMappingStart => true | _ => false end.
Definition block_close (m : marker) : bool := match m with MBlockEnd => true | _ => false end.
Definition flow_open (m : marker) : bool :=
  match m with MFlowSequenceStart | MFlowMappingStart => true | _ => false end.
Definition flow_close (m : marker) : bool :=
  match m with MFlowSequenceEnd | MFlowMappingEnd => true | _ => false end.

(** In each initial part of the list at least as many tokens open as close. *)
Definition nested (opens closes : marker -> bool) (l : list entry) : Prop :=
  forall a b, l = a ++ b -> count closes a <= count opens a.

(** The length of the line break a text begins with: CR LF, LF, CR, NEL (U+0085),
    LS (U+2028), PS (U+2029). *)
Definition break_len (s : str) : nat :=
  match s with
  | a :: r =>
      if (a =? 10)%N then 1
      else if (a =? 13)%N then match r with b :: _ => if (b =? 10)%N then 2 else 1 | [] => 1 end
      else match r with
      | b :: r =>
          if ((a =? 194) && (b =? 133))%N then 2
          else match r with
          | c :: _ => if ((a =? 226) && (b =? 128) && ((c =? 168) || (c =? 169)))%N then 3 else 0
          | [] => 0
          end
      | [] => 0
      end
  | [] => 0
  end.

(** [position t n line column]: the place after the first [n] bytes of the text. *)
Inductive position (t : str) : nat -> nat -> nat -> Prop :=
| pos_start : position t 0 0 0
| pos_byte n l c : position t n l c -> n < List.length t -> break_len (skipn n t) = 0 ->
    position t (S n) l (S c)
| pos_break n l c : position t n l c -> break_len (skipn n t) <> 0 ->
    position t (n + break_len (skipn n t)) (S l) 0.

(** The text before a position shows the indicator of an explicit key. *)
Definition explicit_key (t : str) (mark : nat) : Prop := exists r, skipn (mark - 1) t = 63%N :: r.
(** The text from a position on begins with a key and its [:], on one line and not
    longer than 1024 bytes. *)
Definition implicit_key (t : str) (mark : nat) : Prop :=
  exists k r, skipn mark t = k ++ 58%N :: r /\ (N.of_nat (List.length k) <= 1024)%N /\
    forall j, j < List.length k -> break_len (skipn j (k ++ 58%N :: r)) = 0.

(** The tokens among the answers of a peeking reader. *)
Definition delivered (answers : list (rres (option entry))) : list entry :=
  flat_map (fun x => match x with Ok (Some e) => [e] | _ => [] end) answers.

(** Texts without the beginning of a verbatim tag. *)
Definition no_verbatim_tag (t : str) : Prop := forall a b, t <> a ++ bytes "!<" ++ b.

(** The digits of hexadecimal numbers. *)
Definition hex_digit (h : N) : Prop := (48 <= h <= 57 \/ 65 <= h <= 70 \/ 97 <= h <= 102)%N.
