(** Specification for errors of a source: a source that is watched. *)
From Verif Require Export Parser.

(** The error in an answer of a source, if it is one. *)
Definition answered_error {A} (x : rres A) : list reader_error :=
  match x with Err e => [e] | _ => [] end.

(** The source [T] with a list of the errors it has answered so far. *)
Definition logged {R} (T : token_source R) : token_source (R * list reader_error) :=
  mkSource _
    (fun '(r, log) => let (r', x) := ts_look T r in ((r', log ++ answered_error x), x))
    (fun '(r, log) => let (r', x) := ts_pop T r in ((r', log ++ answered_error x), x))
    (fun '(r, _) => ts_budget T r).

(** What [n] calls of an iterator answer, together with what it reads from then. *)
Fixpoint run_watched {R} (T : token_source R) (debug : bool) (n : nat) (p : parser) (r : R)
  : R * list (pres (option event)) :=
  match n with
  | O => (r, [])
  | S n' =>
      let '(p', r', x) := next_event T debug p r in
      let (r'', xs) := run_watched T debug n' p' r' in (r'', x :: xs)
  end.

(** The errors among the answers that come from reading: of the text, its encoding or
    the source of its bytes. *)
Definition read_error (e : parse_error) : bool :=
  match e with ParserScan _ | ParserUtf8 | ParserIo => true | _ => false end.
Fixpoint read_errors {A} (xs : list (pres A)) : list parse_error :=
  match xs with
  | [] => []
  | Err e :: r => if read_error e then e :: read_errors r else read_errors r
  | _ :: r => read_errors r
  end.
