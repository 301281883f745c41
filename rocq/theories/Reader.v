(** Readers: borrowed text, owned byte source, token reader with one token of
    lookahead (src/reader/mod.rs, src/reader/borrow.rs, src/reader/owned.rs,
    src/reader/error.rs). *)
From Verif Require Export Scanner.

(** src/reader/error.rs:23-97, [ReaderError] (the payloads of the UTF8 and IO
    variants are opaque values of the standard library and are dropped). *)
Inductive reader_error := RUtf8 | RIo | RScan (e : scan_error).
Definition rres := res reader_error.

(** What an [io::Read] source will answer to successive [read] calls: bytes
    (handed out over as many calls as needed; an empty block is one answer of
    "0 bytes"), or an IO error.  After the list is used up it answers 0 bytes for
    ever. *)
Inductive src_item := Data (b : str) | IoErr.
Definition source := list src_item.

(** src/reader/owned.rs:241-271 and 232-239, [Take] and [read_fill]:
    [read_to_end] through a limit of [cap] bytes.  Returns the bytes, the rest of
    the source, and whether an IO error stopped it.  [ErrorKind::Interrupted],
    which [read_to_end] retries, is the same as no item at all. *)
Fixpoint read_data (cap : N) (b : str) : str * str * N :=
  match b with
  | [] => ([], [], cap)
  | x :: r =>
      if (cap =? 0)%N then ([], b, 0%N)
      else let '(t, rest, c) := read_data (cap - 1) r in (x :: t, rest, c)
  end.
Fixpoint read_upto (cap : N) (src : source) : str * source * bool :=
  if (cap =? 0)%N then ([], src, false)
  else
    match src with
    | [] => ([], [], false)
    | IoErr :: r => ([], r, true)
    | Data [] :: r => ([], r, false)
    | Data b :: r =>
        match read_data cap b with
        | (t, [], c) => let '(t', r', e) := read_upto c r in (t ++ t', r', e)
        | (t, rest, _) => (t, Data rest :: r, false)
        end
    end.

(** src/reader/owned.rs:27 and 159-183, [Impl]: the current buffer, the retained old
    buffers, the source, and whether it has answered 0 bytes. *)
Record owned := mkOwned {
  o_head : str; o_tail : list str; o_src : source; o_exhausted : bool
}.
Definition owned_new (s : source) : owned := mkOwned [] [] s false.

(** [usize::next_power_of_two]. *)
Definition next_pow2 (n : N) : N := N.pow 2 (N.log2_up n).

(** src/reader/owned.rs:193-194, size of the next read. *)
Definition chunk_cap (tail mark : nat) : N :=
  next_pow2 (8192 * N.max (N.of_nat tail) 1 + N.of_nat mark).

(** src/reader/owned.rs:190-216, [refresh_buffer(Some(mark))].  On an IO error the
    bytes already read are dropped with the local buffer; on a UTF-8 error the
    exhausted flag is already set. *)
Definition refresh_buffer (o : owned) (mark : nat) : owned * rres unit :=
  if Nat.leb mark (List.length (o_head o)) then
    let '(t, src, err) := read_upto (chunk_cap (List.length (o_tail o)) mark) (o_src o) in
    if err : bool then (mkOwned (o_head o) (o_tail o) src (o_exhausted o), Err RIo)
    else
      let new := skipn mark (o_head o) ++ t in
      let ex := is_empty t in
      if valid_utf8 new
      then (mkOwned new (o_tail o ++ [o_head o]) src ex, Ok tt)
      else (mkOwned (o_head o) (o_tail o) src ex, Err RUtf8)
  else (o, Panic).

(** Bytes and items still to come, plus one: a bound for the refills of one
    call. *)
Definition src_size (s : source) : nat :=
  fold_right (fun i n => match i with Data b => S (List.length b) + n | IoErr => S n end) 1 s.

(** src/reader/owned.rs:55-85, [drive_scanner]. *)
Fixpoint drive_owned (fuel : nat) (opts : flags) (r : owned) (sc : scanner) (q : tokens)
  : owned * scanner * tokens * rres unit :=
  match fuel with
  | O => (r, sc, q, Fuel)
  | S fuel' =>
      let o := mkFlags (negb (o_exhausted r)) (lazy_mode opts) in
      match scan_tokens o (o_head r) sc q with
      | (sc, q, Err Extend) =>
          match refresh_buffer r (sc_offset sc) with
          | (r, Ok _) => drive_owned fuel' opts r (set_offset 0 sc) q
          | (r, Err e) => (r, sc, q, Err e)
          | (r, Panic) => (r, sc, q, Panic)
          | (r, Fuel) => (r, sc, q, Fuel)
          end
      | (sc, q, Ok _) => (r, sc, q, Ok tt)
      | (sc, q, Err e) => (r, sc, q, Err (RScan e))
      | (sc, q, Panic) => (r, sc, q, Panic)
      | (sc, q, Fuel) => (r, sc, q, Fuel)
      end
  end.

(** The two implementors of the sealed trait [Read] (src/reader/mod.rs:107):
    [BorrowReader] (borrow.rs:17-23) and [OwnedReader]. *)
Inductive input := Borrow (text : str) | Own (o : owned).

(** src/reader/borrow.rs:54-62 and owned.rs:90-94, [Read::drive]. *)
Definition drive (opts : flags) (i : input) (sc : scanner) (q : tokens)
  : input * scanner * tokens * rres unit :=
  match i with
  | Borrow t =>
      let '(sc, q, r) := scan_tokens (no_extend opts) t sc q in
      (i, sc, q, map_err RScan r)
  | Own o =>
      let '(o, sc, q, r) := drive_owned (S (S (src_size (o_src o)))) opts o sc q in
      (Own o, sc, q, r)
  end.

(** src/reader/mod.rs:159-168, [Reader]. *)
Record reader := mkReader {
  r_sc : scanner; r_q : tokens; r_opts : flags; r_exhausted : bool; r_in : input
}.

(** src/reader/mod.rs:174-183, [Reader::new]. *)
Definition reader_new (i : input) (o : flags) : reader := mkReader scanner0 q_new o false i.

(** src/reader/mod.rs:185-198, [Reader::scan_tokens]. *)
Definition reader_scan (r : reader) : reader * rres unit :=
  let start := q_len (r_q r) in
  let '(i, sc, q, x) := drive (r_opts r) (r_in r) (r_sc r) (r_q r) in
  let ex := match x with Ok _ => Nat.eqb start (q_len q) | _ => r_exhausted r end in
  (mkReader sc q (r_opts r) ex i, x).

(** src/reader/mod.rs:200-203, [Reader::is_exhausted]. *)
Definition reader_exhausted (r : reader) : bool := r_exhausted r && Nat.eqb (q_len (r_q r)) 0.

(** src/reader/mod.rs:233-237, [PeekReader]. *)
Record peek_reader := mkPeek { pk_peek : option entry; pk_reader : reader }.

(** src/reader/mod.rs:243-246, [PeekReader::new]. *)
Definition peek_new (r : reader) : peek_reader := mkPeek None r.

(** src/reader/mod.rs:295-313, [take_next]. *)
Definition take_next (p : peek_reader) : peek_reader * rres unit :=
  match pk_peek p with
  | Some _ => (p, Ok tt)
  | None =>
      let (r, x) :=
        if Nat.eqb (q_len (r_q (pk_reader p))) 0 then reader_scan (pk_reader p)
        else (pk_reader p, Ok tt) in
      match x with
      | Ok _ =>
          let (e, q) := q_pop entry_cmp (r_q r) in
          (mkPeek e (mkReader (r_sc r) q (r_opts r) (r_exhausted r) (r_in r)), Ok tt)
      | x => (mkPeek None r, x)
      end
  end.

(** src/reader/mod.rs:248-261, [PeekReader::pop]. *)
Definition pk_pop (p : peek_reader) : peek_reader * rres (option entry) :=
  match pk_peek p with
  | Some e => (mkPeek None (pk_reader p), Ok (Some e))
  | None =>
      if reader_exhausted (pk_reader p) then (p, Ok None)
      else
        match take_next p with
        | (p, Ok _) => (mkPeek None (pk_reader p), Ok (pk_peek p))
        | (p, Err e) => (p, Err e)
        | (p, Panic) => (p, Panic)
        | (p, Fuel) => (p, Fuel)
        end
  end.

(** src/reader/mod.rs:263-276, [PeekReader::peek]. *)
Definition pk_look (p : peek_reader) : peek_reader * rres (option entry) :=
  match pk_peek p with
  | Some e => (p, Ok (Some e))
  | None =>
      if reader_exhausted (pk_reader p) then (p, Ok None)
      else
        match take_next p with
        | (p, Ok _) => (p, Ok (pk_peek p))
        | (p, Err e) => (p, Err e)
        | (p, Panic) => (p, Panic)
        | (p, Fuel) => (p, Fuel)
        end
  end.

(** src/reader/mod.rs:278-281, [PeekReader::consume]. *)
Definition pk_consume (p : peek_reader) : peek_reader * bool :=
  (mkPeek None (pk_reader p), match pk_peek p with Some _ => true | None => false end).

(** src/reader/mod.rs:95-98 and borrow.rs:39-44, [try_from_bytes]. *)
Definition try_from_bytes (b : str) : rres input :=
  if valid_utf8 b then Ok (Borrow b) else Err RUtf8.
