(** Readers over a byte source: what they are compared with. *)
From Verif Require Export SpecStream.

(** A source that never fails, and never answers "0 bytes" before its end. *)
Definition steady (src : source) : Prop := Forall (fun i => exists x r, i = Data (x :: r)) src.
(** All the bytes of a source. *)
Definition bytes_of (src : source) : str := flat_map (fun i => match i with Data b => b | IoErr => [] end) src.
(** The reader over a source. *)
Definition pour (src : source) (o : flags) : reader := reader_new (Own (owned_new src)) o.

(** Texts that fit in the first block the reader asks for. *)
Definition short (t : str) : Prop := (N.of_nat (List.length t) <= 8192)%N.

(** Outcomes a consumer cannot tell apart: the same failure, or two readers holding the
    same tokens. *)
Definition alike (x y : rres reader) : Prop :=
  match x, y with
  | Ok r, Ok r' => pending r = pending r' /\ reader_exhausted r = reader_exhausted r'
  | Err e, Err e' => e = e'
  | Panic, Panic => True
  | _, _ => False
  end.

(** The entry with the option to ask for more text taken out of a deferred block scalar,
    as the library does for the deferred scalars of the other styles. *)
Definition settled (e : entry) : entry :=
  match e_wrap e with
  | Lazy (DBlock o t st i f) => mkEntry (Lazy (DBlock (no_extend o) t st i f)) (e_read e)
  | _ => e
  end.
(** Outcomes of readers that defer scalars, up to this option. *)
Definition alike_settled (x y : rres reader) : Prop :=
  match x, y with
  | Ok r, Ok r' => pending r' = map settled (pending r) /\ reader_exhausted r = reader_exhausted r'
  | Err e, Err e' => e = e'
  | Panic, Panic => True
  | _, _ => False
  end.

(** A consumer that goes on after errors (not after a panic).  The answers it has
    received, and the reader it is left with. *)
Inductive answer := Scanned (x : rres unit) | Given (e : option entry).
Fixpoint serves (r : reader) (s : list request) : list answer * reader :=
  match s with
  | [] => ([], r)
  | Fill :: s =>
      match reader_scan r with
      | (r, (Ok _ | Err _) as x) => let (l, r) := serves r s in (Scanned x :: l, r)
      | (r, x) => ([Scanned x], r)
      end
  | Pull :: s =>
      let (e, q) := q_pop entry_cmp (r_q r) in
      let (l, r) := serves (mkReader (r_sc r) q (r_opts r) (r_exhausted r) (r_in r)) s in
      (Given e :: l, r)
  end.

(** Answers without a failure of the source and without malformed bytes. *)
Definition lossless (l : list answer) : Prop := ~ In (Scanned (Err RIo)) l /\ ~ In (Scanned (Err RUtf8)) l.

(** What the reader has still to scan: the rest of the current buffer and of the source. *)
Definition unread (r : reader) : str :=
  match r_in r with
  | Borrow t => skipn (sc_offset (r_sc r)) t
  | Own w => skipn (sc_offset (r_sc r)) (o_head w) ++ bytes_of (o_src w)
  end.
(** The buffers the reader keeps alive, oldest first. *)
Definition buffers (r : reader) : list str :=
  match r_in r with Borrow t => [t] | Own w => o_tail w ++ [o_head w] end.

(** The texts a token refers to without a copy of its own. *)
Definition cow_texts (c : cow) : list str := match c with Borrowed t => [t] | Owned _ => [] end.
Definition token_texts (t : token) : list str :=
  match t with
  | TTagDirective h p | TTag h p => cow_texts h ++ cow_texts p
  | TAlias a | TAnchor a => cow_texts a
  | TScalar c _ => cow_texts c
  | _ => []
  end.
Definition deferred_text (d : deferred) : str :=
  match d with DFlow _ t _ _ | DPlain _ t _ _ _ | DBlock _ t _ _ _ => t end.
Definition entry_texts (e : entry) : list str :=
  match e_wrap e with Tok t => token_texts t | Lazy d => [deferred_text d] end.
(** A contiguous part of a buffer. *)
Definition part_of (y b : str) : Prop := exists p q, b = p ++ y ++ q.

(** What a source says, byte by byte: a byte, the answer "0 bytes", or an error. *)
Inductive event_in := Byte (b : N) | Zero | Failure.
Definition says (src : source) : list event_in :=
  flat_map (fun i => match i with Data [] => [Zero] | Data b => map Byte b | IoErr => [Failure] end) src.
