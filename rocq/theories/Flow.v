(** Single and double quoted scalars (src/scanner/scalar/flow.rs). *)
From Verif Require Export Lex.

(** The mutable locals of [scan_flow_scalar_eager] (flow.rs:53-58): remaining
    text, stats, scratch space, can_borrow. *)
Record fstate := mkF { f_buf : str; f_st : stats; f_scr : str; f_bor : bool }.

(** src/scanner/scalar/flow.rs:372-377 and 56, [Option<EscapeState>]. *)
Inductive esc_state := ENone | EStart | EStarted.

(** src/scanner/scalar/flow.rs:326-336, [set_no_borrow]. *)
Definition f_no_borrow (base : str) (s : fstate) : sres fstate :=
  if f_bor s then
    let* t := slice base 1 (consumed base (f_buf s)) in
    Ok (mkF (f_buf s) (f_st s) (f_scr s ++ t) false)
  else Ok s.

(** [advance!(buffer, :stats, n)] and [advance!(buffer, :stats, @line)]. *)
Definition f_adv (s : fstate) (n : nat) : sres fstate :=
  let* '(b, st) := adv (f_buf s) (f_st s) n in Ok (mkF b st (f_scr s) (f_bor s)).
Definition f_adv_line (s : fstate) : sres fstate :=
  let* '(b, st) := adv_line (f_buf s) (f_st s) in Ok (mkF b st (f_scr s) (f_bor s)).

(** [scratch.push(..)] / [extend_from_slice]. *)
Definition f_push (s : fstate) (t : str) : fstate :=
  mkF (f_buf s) (f_st s) (f_scr s ++ t) (f_bor s).

(** [if !can_borrow { scratch.push(buffer.as_bytes()[0]) }]. *)
Definition f_push_head (s : fstate) : fstate :=
  if f_bor s then s else f_push s (firstn 1 (f_buf s)).

(** src/scanner/scalar/flow.rs:91-139, one round of the non-whitespace loop; the
    boolean result tells whether the closing quote was reached
    ([break 'scalar]). *)
Definition flow_word_body (o : flags) (base : str) (single : bool) (p : fstate * esc_state)
  : sres (step (fstate * esc_state) (fstate * esc_state * bool)) :=
  let '(s, esc) := p in
  if is_wsZ (f_buf s) then Ok (Done (s, esc, false))
  else
    let* _ := cache o (f_buf s) 2 in
    if single && at_is (f_buf s) 0 39 && at_is (f_buf s) 1 39 then
      let* s := f_no_borrow base s in
      let* s := f_adv (f_push s [39%N]) 2 in
      Ok (Next (s, esc))
    else if single && at_is (f_buf s) 0 39 || negb single && at_is (f_buf s) 0 34 then
      Ok (Done (s, esc, true))
    else if negb single && at_is (f_buf s) 0 92 && is_break (skipn 1 (f_buf s)) then
      let* s := f_no_borrow base s in
      let* s := f_adv s 1 in
      Ok (Next (s, EStart))
    else if negb single && at_is (f_buf s) 0 92 then
      let* s := f_no_borrow base s in
      let* '(w, n) := flow_unescape o (f_buf s) in
      let* s := f_adv (f_push s w) n in
      Ok (Next (s, esc))
    else
      let* s := f_adv (f_push_head s) 1 in
      Ok (Next (s, esc)).

Definition flow_word (o : flags) (base : str) (single : bool) (s : fstate) (esc : esc_state)
  : sres (fstate * esc_state * bool) :=
  loop (fuel_of (f_buf s)) (flow_word_body o base single) (s, esc).

(** src/scanner/scalar/flow.rs:162-197, one round of the whitespace loop.  State:
    locals, escaped_break, whitespace, lines. *)
Definition flow_ws_body (o : flags) (base : str) (p : fstate * esc_state * nat * nat)
  : sres (step (fstate * esc_state * nat * nat) (fstate * esc_state * nat * nat)) :=
  let '(s, esc, ws, lines) := p in
  let* _ := cache o (f_buf s) 1 in
  if is_blank (f_buf s) then
    let* s := f_adv (f_push_head s) 1 in
    Ok (Next (s, esc, S ws, lines))
  else if is_break (f_buf s) then
    let* s := f_no_borrow base s in
    let '(esc, ws) := match esc with EStart => (EStarted, 0) | e => (e, ws) end in
    let* s := f_adv_line s in
    Ok (Next (s, esc, ws, S lines))
  else Ok (Done p).

Definition flow_ws (o : flags) (base : str) (s : fstate) (esc : esc_state)
  : sres (fstate * esc_state * nat * nat) :=
  loop (fuel_of (f_buf s)) (flow_ws_body o base) (s, esc, 0, 0).

(** [scratch.truncate(scratch.len() - n)]; an underflow is a panic (overflow
    checks on). *)
Definition chop (scr : str) (n : nat) : sres str :=
  if Nat.leb n (List.length scr) then Ok (firstn (List.length scr - n) scr) else Panic.

(** src/scanner/scalar/flow.rs:200-231, line joining. *)
Definition flow_join (base : str) (s : fstate) (esc : esc_state) (ws lines : nat)
  : sres fstate :=
  match lines with
  | O => Ok s
  | S n =>
      let* s := f_no_borrow base s in
      let* scr := chop (f_scr s) ws in
      let s := mkF (f_buf s) (f_st s) scr (f_bor s) in
      match n with
      | O => Ok (match esc with ENone => f_push s [32%N] | _ => s end)
      | _ => Ok (f_push s (repeat 10%N n))
      end
  end.

(** src/scanner/scalar/flow.rs:69-232, one round of the ['scalar] loop. *)
Definition flow_body (o : flags) (base : str) (single : bool) (s : fstate)
  : sres (step fstate fstate) :=
  let* _ := cache o (f_buf s) 4 in
  if is_doc_indicator (f_buf s) (scol (f_st s)) then Err InvalidFlowScalar
  else if is_empty (f_buf s) then Err UnexpectedEOF
  else
    let* _ := cache o (f_buf s) 1 in
    let* '(s, esc, closed) := flow_word o base single s ENone in
    if closed : bool then Ok (Done s)
    else
      let* '(s, esc, ws, lines) := flow_ws o base s esc in
      let* s := flow_join base s esc ws lines in
      Ok (Next s).

(** src/scanner/scalar/flow.rs:44-253, [scan_flow_scalar_eager]: token, amount
    read, stats. *)
Definition scan_flow_scalar_eager (o : flags) (base : str) (st : stats) (single : bool)
  : sres (token * nat * stats) :=
  let* _ := cache o base 1 in
  let* s := f_adv (mkF base st [] true) 1 in
  let* s := loop (fuel_of base) (flow_body o base single) s in
  let* text :=
    if f_bor s then
      let* t := slice base 1 (consumed base (f_buf s)) in Ok (Borrowed t)
    else
      let* t := utf8_unwrap (f_scr s) in Ok (Owned t) in
  let* _ := cache o (f_buf s) 1 in
  let* s := f_adv s 1 in
  Ok (TScalar text (if single then SingleQuote else DoubleQuote),
      consumed base (f_buf s), f_st s).

(** src/scanner/scalar/flow.rs:280-313, one round of the lazy loop. *)
Definition flow_lazy_body (o : flags) (single : bool) (s : str * stats)
  : sres (step (str * stats) (str * stats)) :=
  let '(buf, st) := s in
  let* _ := cache o buf 2 in
  if is_empty buf then Err UnexpectedEOF
  else if single && at_is buf 0 39 && at_is buf 1 39
       || negb single && at_is buf 0 92 && at_is buf 1 34 then
    let* s := adv buf st 2 in Ok (Next s)
  else if single && at_is buf 0 39 || negb single && at_is buf 0 34 then
    let* s := adv buf st 1 in Ok (Done s)
  else if is_break buf then
    let* s := adv_line buf st in Ok (Next s)
  else
    let* s := adv buf st (width_at buf 0) in Ok (Next s).

(** src/scanner/scalar/flow.rs:259-323, [scan_flow_scalar_lazy]. *)
Definition scan_flow_scalar_lazy (o : flags) (base : str) (st : stats) (single : bool)
  : sres (deferred * nat * stats) :=
  let* _ := cache o base 1 in
  let* s := adv base st 1 in
  let* '(buf, st') := loop (fuel_of base) (flow_lazy_body o single) s in
  let amt := consumed base buf in
  let* t := slice base 0 amt in
  Ok (DFlow (no_extend o) t st single, amt, st').

(** src/scanner/scalar/flow.rs:25-37, [scan_flow_scalar]. *)
Definition scan_flow_scalar (o : flags) (base : str) (st : stats) (single : bool)
  : sres (maybe_token * nat * stats) :=
  if lazy_mode o then
    let* '(d, n, st) := scan_flow_scalar_lazy o base st single in Ok (Lazy d, n, st)
  else
    let* '(t, n, st) := scan_flow_scalar_eager o base st single in Ok (Tok t, n, st).
