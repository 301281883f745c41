(** Several iterators over one reader (src/event/mod.rs:131-240: [from_reader] and
    [Events::new] borrow the reader, so that one reader can serve several iterators). *)
From Verif Require Export Parser.
Open Scope nat_scope.

(** src/event/mod.rs:216-222, [Events]: a parser and a reader of its own over the shared
    input; the input in [it_reader] is that of its last call. *)
Record iterator := mkIterator { it_parser : parser; it_reader : peek_reader }.

(** src/event/mod.rs:233-240, [Events::new], for an input in some state. *)
Definition iterator_new (i : input) (lazy : bool) : iterator :=
  let (p, r) := events_new i lazy in mkIterator p r.

(** The reader as it is after the calls of others: the shared input has moved on
    (owned.rs:106-108, the [UnsafeCell]; a [BorrowReader] has no state, borrow.rs:19-23). *)
Definition with_input (i : input) (p : peek_reader) : peek_reader :=
  let r := pk_reader p in mkPeek (pk_peek p) (mkReader (r_sc r) (r_q r) (r_opts r) (r_exhausted r) i).

(** src/event/mod.rs:305-312 and 353-360, [next]: the answer, and the states of the
    iterator and of the shared input. *)
Definition iterator_next (debug : bool) (i : input) (it : iterator) : input * iterator * pres (option event) :=
  let '(p, r, x) := next_event peek_source debug (it_parser it) (with_input i (it_reader it)) in
  (r_in (pk_reader r), mkIterator p r, x).

(** Calls of the iterators of a list, in the order of a schedule of their numbers: which
    iterator was called, and its answer. *)
Fixpoint replace {A} (l : list A) (k : nat) (a : A) : list A :=
  match l, k with
  | [], _ => []
  | _ :: l, O => a :: l
  | x :: l, S k => x :: replace l k a
  end.
Fixpoint interleave (debug : bool) (i : input) (its : list iterator) (schedule : list nat) : list (nat * pres (option event)) :=
  match schedule with
  | [] => []
  | k :: schedule =>
      match nth_error its k with
      | Some it => let '(i, it, x) := iterator_next debug i it in (k, x) :: interleave debug i (replace its k it) schedule
      | None => interleave debug i its schedule
      end
  end.
