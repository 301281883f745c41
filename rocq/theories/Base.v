(** Basic vocabulary of the model: bytes, text, results, loops.

    Text is a list of bytes ([N], each below 256 for real inputs); a Rust
    [&str] is such a list.  Positions and lengths are [nat] (Rust [usize],
    without overflow: a text of 2^64 bytes does not exist).  A Rust panic is the
    explicit value [Panic]; a loop that exceeds its fuel is the explicit value
    [Fuel] (theorems show it is never returned). *)

From Coq Require Export List NArith Arith Bool String.
From Coq Require Ascii.
Export ListNotations.
Open Scope list_scope.

(** A byte, Rust [u8].  Bytes of texts are always below 256, see [Utf8.v]. *)
Definition byte := N.

(** A text / byte string, Rust [&str], [&[u8]], [String], [Vec<u8>]. *)
Definition str := list N.

(** Write a text as a Coq string literal. *)
Fixpoint bytes (s : string) : str :=
  match s with
  | EmptyString => []
  | String a s' => Ascii.N_of_ascii a :: bytes s'
  end.

(** The outcome of a Rust function returning [Result<A, E>]: a value, an error,
    a panic, or (model only) loop fuel exhausted. *)
Inductive res (E A : Type) : Type :=
| Ok (a : A)
| Err (e : E)
| Panic
| Fuel.
Arguments Ok {E A} a.
Arguments Err {E A} e.
Arguments Panic {E A}.
Arguments Fuel {E A}.

(** Rust's [?] operator. *)
Definition bind {E A B : Type} (m : res E A) (k : A -> res E B) : res E B :=
  match m with
  | Ok a => k a
  | Err e => Err e
  | Panic => Panic
  | Fuel => Fuel
  end.

Notation "'let*' x ':=' m 'in' k" := (bind m (fun x => k))
  (at level 200, x name, m at level 100, k at level 200, right associativity).
Notation "'let*' ' p ':=' m 'in' k" := (bind m (fun x => let 'p := x in k))
  (at level 200, p strict pattern, m at level 100, k at level 200, right associativity).

(** [Result::map_err]. *)
Definition map_err {E F A : Type} (f : E -> F) (m : res E A) : res F A :=
  match m with
  | Ok a => Ok a
  | Err e => Err (f e)
  | Panic => Panic
  | Fuel => Fuel
  end.

(** One round of a Rust [loop]/[while]: go on with a new state or leave the
    loop with a result. *)
Inductive step (S R : Type) : Type :=
| Next (s : S)
| Done (r : R).
Arguments Next {S R} s.
Arguments Done {S R} r.

(** A Rust [loop]: run [body] until it leaves the loop, at most [fuel] times. *)
Fixpoint loop {E S R : Type} (fuel : nat) (body : S -> res E (step S R)) (s : S) : res E R :=
  match fuel with
  | O => Fuel
  | Datatypes.S fuel' =>
      match body s with
      | Ok (Next s') => loop fuel' body s'
      | Ok (Done r) => Ok r
      | Err e => Err e
      | Panic => Panic
      | Fuel => Fuel
      end
  end.

(** ** Text access *)

(** [str::is_char_boundary]: the start, the end, or a byte that is not a UTF-8
    continuation byte (128..=191). *)
Definition is_cont (b : N) : bool := (128 <=? b)%N && (b <=? 191)%N.

Definition is_boundary (s : str) (n : nat) : bool :=
  match n with
  | O => true
  | _ => match nth_error s n with
         | Some b => negb (is_cont b)
         | None => Nat.eqb n (List.length s)
         end
  end.

(** [str::split_at], second half: panics off a character boundary or out of
    range. *)
Definition skip {E : Type} (s : str) (n : nat) : res E str :=
  if is_boundary s n then Ok (skipn n s) else Panic.

(** [&s[a..b]] on a [str]: panics on a reversed range, off a boundary, or out of
    range. *)
Definition slice {E : Type} (s : str) (a b : nat) : res E str :=
  if Nat.leb a b && is_boundary s a && is_boundary s b
  then Ok (firstn (b - a) (skipn a s))
  else Panic.

(** [s.as_bytes()[n]] compared with a byte; false past the end. *)
Definition at_is (s : str) (n : nat) (c : N) : bool :=
  match nth_error s n with
  | Some b => (b =? c)%N
  | None => false
  end.

Definition is_empty {A : Type} (s : list A) : bool :=
  match s with [] => true | _ => false end.

(** Byte equality of texts. *)
Fixpoint str_eqb (a b : str) : bool :=
  match a, b with
  | [], [] => true
  | x :: a', y :: b' => (x =? y)%N && str_eqb a' b'
  | _, _ => false
  end.

(** [str::starts_with]. *)
Fixpoint starts_with (s p : str) : bool :=
  match p, s with
  | [], _ => true
  | y :: p', x :: s' => (x =? y)%N && starts_with s' p'
  | _ :: _, [] => false
  end.

(** [u8::is_ascii_alphanumeric] / [is_ascii_digit]. *)
Definition is_digit (b : N) : bool := (48 <=? b)%N && (b <=? 57)%N.
Definition is_upper (b : N) : bool := (65 <=? b)%N && (b <=? 90)%N.
Definition is_lower (b : N) : bool := (97 <=? b)%N && (b <=? 122)%N.
Definition is_alnum (b : N) : bool := is_digit b || is_upper b || is_lower b.
