(** Plain scalars (src/scanner/scalar/plain.rs). *)
From Verif Require Export Flow.

(** src/scanner/scalar/plain.rs:410-418, [set_no_borrow] (from offset 0; flow.rs
    starts at 1).  The locals are those of [fstate]: text, local_stats, scratch,
    can_borrow. *)
Definition p_no_borrow (base : str) (s : fstate) : sres fstate :=
  if f_bor s then
    let* t := slice base 0 (consumed base (f_buf s)) in
    Ok (mkF (f_buf s) (f_st s) (f_scr s ++ t) false)
  else Ok s.

(** src/scanner/scalar/plain.rs:125-126, 144-145, 314-315 and 325-326: does the
    text end a plain scalar here? *)
Definition plain_end (flow : bool) (buf : str) : bool :=
  at_is buf 0 58 && is_wsZ_at buf 1 || flow && is_flow_ind_at buf 0.

(** src/scanner/scalar/plain.rs:140-155, one round of the non-whitespace loop. *)
Definition plain_word_body (o : flags) (flow : bool) (s : fstate)
  : sres (step fstate fstate) :=
  if is_wsZ (f_buf s) then Ok (Done s)
  else
    let* _ := cache o (f_buf s) 2 in
    if plain_end flow (f_buf s) then Ok (Done s)
    else
      let* s := f_adv (f_push_head s) 1 in Ok (Next s).
Definition plain_word (o : flags) (flow : bool) (s : fstate) : sres fstate :=
  loop (fuel_of (f_buf s)) (plain_word_body o flow) s.

(** src/scanner/scalar/plain.rs:160-187, one round of the whitespace loop.  State:
    locals, whitespace, lines. *)
Definition plain_ws_body (o : flags) (base : str) (p : fstate * nat * nat)
  : sres (step (fstate * nat * nat) (fstate * nat * nat)) :=
  let '(s, ws, lines) := p in
  let* _ := cache o (f_buf s) 1 in
  if is_blank (f_buf s) then
    let* s := f_adv (f_push_head s) 1 in
    Ok (Next (s, S ws, lines))
  else if is_break (f_buf s) then
    let* s := p_no_borrow base s in
    let* s := f_adv_line s in
    Ok (Next (s, ws, S lines))
  else Ok (Done p).
Definition plain_ws (o : flags) (base : str) (s : fstate) : sres (fstate * nat * nat) :=
  loop (fuel_of (f_buf s)) (plain_ws_body o base) (s, 0, 0).

(** src/scanner/scalar/plain.rs:194-227, line joining: the locals and the new
    values of whitespace and lines. *)
Definition plain_join (s : fstate) (ws lines : nat) : sres (fstate * nat * nat) :=
  match lines with
  | O => Ok (s, ws, lines)
  | S n =>
      let* scr := chop (f_scr s) ws in
      let s := mkF (f_buf s) (f_st s) scr (f_bor s) in
      match n with
      | O => Ok (f_push s [32%N], 0, lines)
      | _ => Ok (f_push s (repeat 10%N n), 0, n)
      end
  end.

(** The locals that live across rounds of the ['scalar] loop (plain.rs:55-73):
    text/stats/scratch/borrow, scalar_stats, outdent, whitespace, lines. *)
Record pstate := mkP {
  p_f : fstate; p_scalar : stats; p_outdent : bool; p_ws : nat; p_lines : nat
}.

(** src/scanner/scalar/plain.rs:86-228, one round of the ['scalar] loop. *)
Definition plain_body (o : flags) (base : str) (indent : nat) (block : bool) (p : pstate)
  : sres (step pstate pstate) :=
  let s := p_f p in
  let* _ := cache o (f_buf s) 4 in
  if is_empty (f_buf s) || p_outdent p
     || is_doc_indicator (f_buf s) (scol (f_st s)) || at_is (f_buf s) 0 35
     || plain_end (negb block) (f_buf s)
  then Ok (Done p)
  else
    let* s := plain_word o (negb block) s in
    let scalar := f_st s in
    let* '(s, ws, lines) := plain_ws o base s in
    let outdent := block && Nat.ltb (scol (f_st s)) indent in
    let* '(s, ws, lines) := plain_join s ws lines in
    Ok (Next (mkP s scalar outdent ws lines)).

(** src/scanner/scalar/plain.rs:47-254, [scan_plain_scalar_eager]. *)
Definition scan_plain_scalar_eager (o : flags) (base : str) (st : stats)
  (indent : nat) (block : bool) : sres (token * nat * stats) :=
  let* _ := cache o base 2 in
  if negb block && (at_is base 0 58 || at_is base 0 63 || at_is base 0 45)
     && is_flow_ind_at base 1
  then Err InvalidPlainScalar
  else
    let* p := loop (fuel_of base) (plain_body o base indent block)
                (mkP (mkF base st [] true) st false 0 0) in
    let s := p_f p in
    let* scr := if f_bor s then Ok (f_scr s) else chop (f_scr s) (p_ws p + p_lines p) in
    let amt := sread (p_scalar p) - sread st in
    let* text :=
      if f_bor s then
        let* t := slice base 0 amt in Ok (Borrowed t)
      else
        let* t := utf8_unwrap scr in Ok (Owned t) in
    Ok (TScalar text Plain, amt, p_scalar p).

(** src/scanner/scalar/plain.rs:321-341, one round of the lazy non-whitespace
    loop.  The result tells whether the scalar ended ([break 'scalar]) and, if
    so, how much further the slice reaches ([skip]). *)
Definition plain_lazy_word_body (o : flags) (flow : bool) (s : str * stats)
  : sres (step (str * stats) (str * stats * option nat)) :=
  let '(buf, st) := s in
  if is_wsZ buf then Ok (Done (buf, st, None))
  else
    let* _ := cache o buf 2 in
    if plain_end flow buf then
      Ok (Done (buf, st, Some (if is_ws_at buf 1 then 2 else 1)))
    else
      let* s := adv buf st 1 in Ok (Next s).

(** src/scanner/scalar/plain.rs:346-365, one round of the lazy whitespace loop. *)
Definition plain_lazy_ws_body (o : flags) (s : str * stats)
  : sres (step (str * stats) (str * stats)) :=
  let '(buf, st) := s in
  let* _ := cache o buf 1 in
  if is_blank buf then let* s := adv buf st 1 in Ok (Next s)
  else if is_break buf then let* s := adv_line buf st in Ok (Next s)
  else Ok (Done s).

(** src/scanner/scalar/plain.rs:275-370, one round of the lazy ['scalar] loop.
    State: text, local_stats, scalar_stats, outdent. *)
Definition plain_lazy_body (o : flags) (indent : nat) (block : bool)
  (p : str * stats * stats * bool)
  : sres (step (str * stats * stats * bool) (stats * stats)) :=
  let '(buf, local, scalar, outdent) := p in
  let* _ := cache o buf 4 in
  if is_empty buf || outdent
     || is_doc_indicator buf (scol local) || at_is buf 0 35
     || plain_end (negb block) buf
  then Ok (Done (local, scalar))
  else
    let* '(buf, local, stop) :=
      loop (fuel_of buf) (plain_lazy_word_body o (negb block)) (buf, local) in
    match stop with
    | Some n => Ok (Done (supd local n 0 n, local))
    | None =>
        let scalar := local in
        let* '(buf, local) := loop (fuel_of buf) (plain_lazy_ws_body o) (buf, local) in
        Ok (Next (buf, local, scalar, block && Nat.ltb (scol local) indent))
    end.

(** src/scanner/scalar/plain.rs:256-401, [scan_plain_scalar_lazy]. *)
Definition scan_plain_scalar_lazy (o : flags) (base : str) (st : stats)
  (indent : nat) (block : bool) : sres (deferred * nat * stats) :=
  let* '(local, scalar) :=
    loop (fuel_of base) (plain_lazy_body o indent block) (base, st, st, false) in
  let amt := sread scalar - sread st in
  let* t := slice base 0 (sread local - sread st) in
  Ok (DPlain (no_extend o) t st indent block, amt, scalar).

(** src/scanner/scalar/plain.rs:19-36, [scan_plain_scalar]. *)
Definition scan_plain_scalar (o : flags) (base : str) (st : stats) (c : context)
  : sres (maybe_token * nat * stats) :=
  let indent := indent_add (cur_indent c) 1 in
  let block := is_block c in
  if lazy_mode o then
    let* '(d, n, st) := scan_plain_scalar_lazy o base st indent block in Ok (Lazy d, n, st)
  else
    let* '(t, n, st) := scan_plain_scalar_eager o base st indent block in Ok (Tok t, n, st).
