(** Errors and text primitives of the scanner (src/scanner/error.rs,
    src/scanner/macros.rs, src/scanner/stats.rs, src/scanner/flag.rs). *)
From Verif Require Export Base Utf8.

(** src/scanner/error.rs:14-87, [ScanError]. *)
Inductive scan_error :=
| UnknownDirective | MissingMajor | MissingMinor | MissingValue
| InvalidVersion | InvalidTagHandle | InvalidTagPrefix | InvalidTagSuffix
| InvalidAnchorName | InvalidFlowScalar | InvalidPlainScalar | InvalidBlockScalar
| InvalidBlockEntry | InvalidTab | InvalidKey | InvalidValue
| UnknownEscape | UnknownDelimiter | UnexpectedEOF | IntOverflow | Extend.

Definition sres := res scan_error.

(** src/scanner/flag.rs: [O_EXTENDABLE] and [O_LAZY]. *)
Record flags := mkFlags { extendable : bool; lazy_mode : bool }.

(** src/scanner/flag.rs, [opts.remove(O_EXTENDABLE)]. *)
Definition no_extend (o : flags) : flags := mkFlags false (lazy_mode o).

(** src/scanner/stats.rs:19-29, [MStats]. *)
Record stats := mkStats { sread : nat; slines : nat; scol : nat }.

(** src/scanner/stats.rs:31-41. *)
Definition stats0 : stats := mkStats 0 0 0.

(** src/scanner/stats.rs:43-58, [MStats::update]: the column restarts when a
    line was crossed. *)
Definition supd (s : stats) (read lines column : nat) : stats :=
  mkStats (sread s + read) (slines s + lines)
          (match lines with O => scol s + column | _ => column end).

(** src/scanner/stats.rs:60-71, [AddAssign]. *)
Definition sadd (s d : stats) : stats := supd s (sread d) (slines d) (scol d).

(** src/scanner/macros.rs:446-465, [widthOf!] at the head of a text: width of the
    UTF-8 character from its first byte, 0 at the end or on a continuation byte.
    The masks are written as the equivalent ranges of [u8]. *)
Definition width_byte (c : N) : nat :=
  if (c <? 128)%N then 1
  else if rng 192 223 c then 2
  else if rng 224 239 c then 3
  else if rng 240 247 c then 4
  else 0.

Definition width_at (s : str) (off : nat) : nat :=
  match nth_error s off with
  | Some c => width_byte c
  | None => 0
  end.

(** src/scanner/macros.rs:112-148, [cache!]: make sure [n] characters are
    available at [off]; if not, ask for more input when the buffer is
    extendable.  The returned byte count is never used by the callers and is
    dropped here. *)
Fixpoint cache_at (o : flags) (s : str) (off n : nat) : sres unit :=
  match n with
  | O => Ok tt
  | S n' =>
      match width_at s off with
      | O => if extendable o then Err Extend else Ok tt
      | w => cache_at o s (off + w) n'
      end
  end.

Definition cache (o : flags) (s : str) (n : nat) : sres unit := cache_at o s 0 n.

(** src/scanner/macros.rs:32-40, [advance!(buffer, amt)] with stats. *)
Definition adv (s : str) (st : stats) (n : nat) : sres (str * stats) :=
  let* r := skip s n in Ok (r, supd st n 0 n).

(** src/scanner/macros.rs:72-82, number of bytes of the line break at the head. *)
Definition break_amt (s : str) : nat :=
  match s with
  | a :: r =>
      if (a =? 13)%N then if at_is r 0 10 then 2 else 1
      else if (a =? 10)%N then 1
      else if (a =? 194)%N then if at_is r 0 133 then 2 else 0
      else if (a =? 226)%N then
        if at_is r 0 128 && (at_is r 1 168 || at_is r 1 169) then 3 else 0
      else 0
  | [] => 0
  end.

(** src/scanner/macros.rs:51-59, [advance!(buffer, :stats, @line)]: the line
    counter moves even if no break is present. *)
Definition adv_line (s : str) (st : stats) : sres (str * stats) :=
  let* r := skip s (break_amt s) in Ok (r, supd st (break_amt s) 1 0).

(** src/scanner/macros.rs:265-279, [isBreak!]. *)
Definition is_break (s : str) : bool := negb (Nat.eqb (break_amt s) 0).

(** src/scanner/macros.rs:320-327, [isBlank!]: space or tab. *)
Definition is_blank (s : str) : bool := at_is s 0 32 || at_is s 0 9.

(** src/scanner/macros.rs:293-307, [isBreakZ!]. *)
Definition is_breakZ (s : str) : bool := is_break s || is_empty s.

(** src/scanner/macros.rs:341-356, [isWhiteSpace!], and :367-384,
    [isWhiteSpaceZ!].  An offset past the end behaves like the end
    (macros.rs:177-234), which is what [skipn] gives. *)
Definition is_ws (s : str) : bool := is_blank s || is_break s.
Definition is_wsZ (s : str) : bool := is_blank s || is_break s || is_empty s.
Definition is_ws_at (s : str) (n : nat) : bool := is_ws (skipn n s).
Definition is_wsZ_at (s : str) (n : nat) : bool := is_wsZ (skipn n s).

(** src/scanner/macros.rs:398-413, [isDocumentIndicator!]. *)
Definition is_doc_indicator (s : str) (col : nat) : bool :=
  Nat.eqb col 0
  && (starts_with s (bytes "---") || starts_with s (bytes "..."))
  && is_wsZ_at s 3.

(** src/scanner/macros.rs:426-436, [isHex!]. *)
Definition is_hex_byte (b : N) : bool :=
  is_digit b || rng 65 70 b || rng 97 102 b.

(** Flow indicators [,[]{}] at an offset (used by plain.rs and mod.rs:1096). *)
Definition is_flow_ind_byte (b : N) : bool :=
  (b =? 44)%N || (b =? 91)%N || (b =? 93)%N || (b =? 123)%N || (b =? 125)%N.
Definition is_flow_ind_at (s : str) (n : nat) : bool :=
  match nth_error s n with Some b => is_flow_ind_byte b | None => false end.

(** Copy on write text, [Cow<'de, str>] (src/event/types.rs:25). *)
Inductive cow := Borrowed (s : str) | Owned (s : str).
Definition cow_str (c : cow) : str := match c with Borrowed s => s | Owned s => s end.
