(** Literal and folded block scalars (src/scanner/scalar/block.rs). *)
From Verif Require Export Plain.

(** src/scanner/scalar/block.rs:682-701, [ChompStyle]. *)
Inductive chomp_style := Clip | Strip | Keep.

(** src/scanner/scalar/block.rs:398-445, [scan_headers]: chomping, explicit
    indent, text, stats.  The or-patterns of lines 416, 428 and 433 are tried
    against the first byte, then the second.  An indent header of 0 is [None]. *)
Definition scan_headers (o : flags) (buf : str) (st : stats)
  : sres (chomp_style * option nat * str * stats) :=
  let* _ := cache o buf 2 in
  let digit n := match nth_error buf n with
                 | Some b => if is_digit b then Some (N.to_nat (b - 48)) else None
                 | None => None
                 end in
  let ind := match digit 0 with Some d => Some d | None => digit 1 end in
  let skip1 := match ind with Some _ => 1 | None => 0 end in
  let explicit := match ind with Some (S d) => Some (S d) | _ => None end in
  let has c := at_is buf 0 c || at_is buf 1 c in
  let '(chomp, skip2) :=
    if has 43%N then (Keep, 1) else if has 45%N then (Strip, 1) else (Clip, 0) in
  let* '(buf, st) := adv buf st (skip1 + skip2) in
  Ok (chomp, explicit, buf, st).

(** src/scanner/scalar/block.rs:662-666 and 670-674, the two loops of
    [skip_blanks]. *)
Definition skip_blank_body (o : flags) (s : str * stats)
  : sres (step (str * stats) (str * stats)) :=
  let '(buf, st) := s in
  if is_blank buf then
    let* _ := cache o buf 1 in
    let* s := adv buf st 1 in Ok (Next s)
  else Ok (Done s).
Definition skip_line_body (o : flags) (s : str * stats)
  : sres (step (str * stats) (str * stats)) :=
  let '(buf, st) := s in
  if is_breakZ buf then Ok (Done s)
  else
    let* _ := cache o buf 1 in
    let* s := adv buf st 1 in Ok (Next s).

(** src/scanner/scalar/block.rs:658-678, [skip_blanks], always called with
    comments (lines 136, 327). *)
Definition skip_blanks (o : flags) (buf : str) (st : stats) : sres (str * stats) :=
  let* _ := cache o buf 1 in
  let* '(buf, st) := loop (fuel_of buf) (skip_blank_body o) (buf, st) in
  if at_is buf 0 35 then loop (fuel_of buf) (skip_line_body o) (buf, st)
  else Ok (buf, st).

(** src/scanner/scalar/block.rs:611-626, indentation spaces of
    [detect_indent_level].  State: text, stats, can_borrow. *)
Definition detect_space_body (o : flags) (lines : nat) (s : str * stats * bool)
  : sres (step (str * stats * bool) (str * stats * bool)) :=
  let '(buf, st, borrow) := s in
  if is_blank buf then
    let* _ := cache o buf 1 in
    if at_is buf 0 9 then Err InvalidTab
    else
      let borrow := if borrow && Nat.ltb 0 lines then false else borrow in
      let* '(buf, st) := adv buf st 1 in Ok (Next (buf, st, borrow))
  else Ok (Done s).

(** src/scanner/scalar/block.rs:606-644, one round of the loop of
    [detect_indent_level].  State: text, stats, can_borrow, lines, indent. *)
Definition detect_body (o : flags) (s : str * stats * bool * nat * nat)
  : sres (step (str * stats * bool * nat * nat) (str * stats * bool * nat * nat)) :=
  let '(buf, st, borrow, lines, indent) := s in
  let* _ := cache o buf 1 in
  let* '(buf, st, borrow) := loop (fuel_of buf) (detect_space_body o lines) (buf, st, borrow) in
  let indent := if Nat.ltb indent (scol st) then scol st else indent in
  let* _ := cache o buf 1 in
  if negb (is_break buf) then Ok (Done (buf, st, borrow, lines, indent))
  else
    let* '(buf, st) := adv_line buf st in
    Ok (Next (buf, st, borrow, S lines, indent)).

(** src/scanner/scalar/block.rs:595-654, [detect_indent_level]: indent, text,
    stats, lines, can_borrow. *)
Definition detect_indent_level (o : flags) (buf : str) (st : stats)
  (base_indent lines : nat) (borrow : bool) : sres (nat * str * stats * nat * bool) :=
  let* '(buf, st, borrow, lines, indent) :=
    loop (fuel_of buf) (detect_body o) (buf, st, borrow, lines, 0) in
  let indent := if Nat.ltb indent (base_indent + 1) then base_indent + 1 else indent in
  Ok (indent, buf, st, lines, borrow).

(** src/scanner/scalar/block.rs:464-484, one round of the loop of [scan_indent]. *)
Definition scan_indent_body (o : flags) (indent : nat) (s : str * stats * nat)
  : sres (step (str * stats * nat) (str * stats * nat)) :=
  let '(buf, st, lines) := s in
  if Nat.ltb (scol st) indent && is_ws buf then
    let* s :=
      if at_is buf 0 32 then
        let* '(buf, st) := adv buf st 1 in Ok (buf, st, lines)
      else if at_is buf 0 9 then Err InvalidTab
      else if is_break buf then
        let* '(buf, st) := adv_line buf st in Ok (buf, st, S lines)
      else Ok (buf, st, lines) in
    let* _ := cache o (fst (fst s)) 1 in
    Ok (Next s)
  else Ok (Done s).

(** src/scanner/scalar/block.rs:448-487, [scan_indent] (callers ignore the
    returned bool). *)
Definition scan_indent (o : flags) (buf : str) (st : stats) (lines indent : nat)
  : sres (str * stats * nat) :=
  if Nat.leb indent (scol st) then Ok (buf, st, lines)
  else
    let* _ := cache o buf 1 in
    loop (fuel_of buf) (scan_indent_body o indent) (buf, st, lines).

(** src/scanner/scalar/block.rs:255-264 and 363-367, one round of the loop over the
    contents of a line (the lazy variant has no scratch space). *)
Definition block_line_body (o : flags) (s : fstate) : sres (step fstate fstate) :=
  if is_breakZ (f_buf s) then Ok (Done s)
  else
    let* _ := cache o (f_buf s) 1 in
    let* s := f_adv (f_push_head s) 1 in Ok (Next s).

(** The locals of [scan_block_scalar_eager] that live across lines
    (block.rs:97-115): text/stats/scratch/borrow, content_start, content_end,
    lines. *)
Record bstate := mkB { b_f : fstate; b_start : nat; b_end : nat; b_lines : nat }.

(** src/scanner/scalar/block.rs:182-290, one round of the line loop. *)
Definition block_body (o : flags) (base : str) (st0 : stats) (indent : nat) (fold : bool)
  (b : bstate) : sres (step bstate bstate) :=
  let s := b_f b in
  if Nat.eqb (scol (f_st s)) indent && negb (is_empty (f_buf s)) then
    let lines := b_lines b in
    (* 195-200 *)
    let* s :=
      if f_bor s && Nat.ltb 0 lines then
        let* t := slice base (b_start b) (b_end b) in
        Ok (mkF (f_buf s) (f_st s) (f_scr s ++ t) false)
      else Ok s in
    (* 203-235 *)
    let s :=
      if fold then
        match lines with
        | O => s
        | S O => f_push s [32%N]
        | S n => f_push s (repeat 10%N n)
        end
      else f_push s (repeat 10%N lines) in
    (* 241-251 *)
    let start :=
      if f_bor s then
        if Nat.eqb (b_start b) 0 then sread (f_st s) - sread st0 else b_start b
      else 0 in
    (* 254-264 *)
    let* _ := cache o (f_buf s) 1 in
    let* s := loop (fuel_of (f_buf s)) (block_line_body o) s in
    (* 267-271 *)
    let end_ := if f_bor s then sread (f_st s) - sread st0 else List.length (f_scr s) in
    (* 274-279 *)
    let* _ := cache o (f_buf s) 1 in
    let* '(s, lines) :=
      if is_break (f_buf s) then
        let* s := f_adv_line s in Ok (s, 1)
      else Ok (s, 0) in
    (* 282-289 *)
    let* '(buf, st, lines) := scan_indent o (f_buf s) (f_st s) lines indent in
    Ok (Next (mkB (mkF buf st (f_scr s) (f_bor s)) start end_ lines))
  else Ok (Done b).

(** src/scanner/scalar/block.rs:494-591, [scan_chomp]. *)
Definition scan_chomp (base scratch : str) (borrow : bool) (style : chomp_style)
  (start end_ lines : nat) : sres cow :=
  let copy scratch lines :=
    let scratch :=
      match style with
      | Clip =>
          match lines with
          | O => firstn end_ scratch
          | _ => firstn (end_ + 1) (scratch ++ [10%N])
          end
      | Strip => firstn end_ scratch
      | Keep => scratch ++ repeat 10%N lines
      end in
    let* t := utf8_unwrap scratch in Ok (Owned t) in
  if borrow then
    match style with
    | Clip =>
        (* &base[end..] panics off a boundary *)
        let* end_ :=
          match lines with
          | O => Ok end_
          | _ => let* tail := slice base end_ (List.length base) in
                 Ok (end_ + width_at tail 1)
          end in
        let* t := slice base start end_ in Ok (Borrowed t)
    | Strip => let* t := slice base start end_ in Ok (Borrowed t)
    | Keep =>
        match lines with
        | O | S O => let* t := slice base start (end_ + lines) in Ok (Borrowed t)
        | _ =>
            let* t := slice base start end_ in
            copy (scratch ++ t ++ repeat 10%N lines) 0
        end
    end
  else copy scratch lines.

(** src/scanner/scalar/block.rs:127-144 = 318-335: indicator, headers, rest of the
    header line. *)
Definition block_header (o : flags) (base : str) (st : stats)
  : sres (chomp_style * option nat * str * stats) :=
  let* _ := cache o base 1 in
  let* '(buf, st) := adv base st 1 in
  let* '(chomp, explicit, buf, st) := scan_headers o buf st in
  let* '(buf, st) := skip_blanks o buf st in
  let* _ := cache o buf 1 in
  if negb (is_wsZ buf) then Err InvalidBlockScalar
  else
    let* '(buf, st) := adv_line buf st in
    Ok (chomp, explicit, buf, st).

(** src/scanner/scalar/block.rs:88-301, [scan_block_scalar_eager]. *)
Definition scan_block_scalar_eager (o : flags) (base : str) (st : stats)
  (base_indent : nat) (fold : bool) : sres (token * nat * stats) :=
  let* '(chomp, explicit, buf, local) := block_header o base st in
  let* '(indent, buf, local, lines, borrow) :=
    match explicit with
    | Some e => Ok (base_indent + e, buf, local, 0, true)
    | None => detect_indent_level o buf local base_indent 0 true
    end in
  let '(start, scratch) :=
    if borrow : bool then (sread local - sread st, []) else (0, repeat 10%N lines) in
  let* b := loop (fuel_of base) (block_body o base st indent fold)
              (mkB (mkF buf local scratch borrow) start 0 0) in
  let s := b_f b in
  let* text := scan_chomp base (f_scr s) (f_bor s) chomp (b_start b) (b_end b) (b_lines b) in
  Ok (TScalar text (if fold then Folded else Literal), consumed base (f_buf s), f_st s).

(** src/scanner/scalar/block.rs:355-385, one round of the lazy line loop.  The
    scratch space of [block_line_body] is unused. *)
Definition block_lazy_body (o : flags) (indent : nat) (s : str * stats)
  : sres (step (str * stats) (str * stats)) :=
  let '(buf, st) := s in
  if Nat.eqb (scol st) indent && negb (is_empty buf) then
    let* _ := cache o buf 1 in
    let* f := loop (fuel_of buf) (block_line_body o) (mkF buf st [] true) in
    let* _ := cache o (f_buf f) 1 in
    let* f := if is_break (f_buf f) then f_adv_line f else Ok f in
    let* '(buf, st, _) := scan_indent o (f_buf f) (f_st f) 0 indent in
    Ok (Next (buf, st))
  else Ok (Done s).

(** src/scanner/scalar/block.rs:303-395, [scan_block_scalar_lazy].  Unlike the
    other two lazy scanners it keeps [O_EXTENDABLE] (line 390). *)
Definition scan_block_scalar_lazy (o : flags) (base : str) (st : stats)
  (base_indent : nat) (fold : bool) : sres (deferred * nat * stats) :=
  let* '(chomp, explicit, buf, local) := block_header o base st in
  let* '(indent, buf, local) :=
    match explicit with
    | Some e => Ok (base_indent + e, buf, local)
    | None =>
        let* '(indent, buf, local, _, _) := detect_indent_level o buf local base_indent 0 false in
        Ok (indent, buf, local)
    end in
  let* '(buf, local) := loop (fuel_of base) (block_lazy_body o indent) (buf, local) in
  let amt := consumed base buf in
  let* t := slice base 0 amt in
  Ok (DBlock o t st base_indent fold, amt, local).

(** src/scanner/scalar/block.rs:61-79, [scan_block_scalar]. *)
Definition scan_block_scalar (o : flags) (base : str) (st : stats) (c : context) (fold : bool)
  : sres (maybe_token * nat * stats) :=
  let indent := indent_usize (cur_indent c) in
  if lazy_mode o then
    let* '(d, n, st) := scan_block_scalar_lazy o base st indent fold in Ok (Lazy d, n, st)
  else
    let* '(t, n, st) := scan_block_scalar_eager o base st indent fold in Ok (Tok t, n, st).

(** src/scanner/scalar/flow.rs:359-369, plain.rs:449-460, block.rs:758-769 and
    src/scanner/entry.rs:192-200, [Lazy::into_token]: evaluate a deferred scalar. *)
Definition eval_deferred (d : deferred) : sres token :=
  match d with
  | DFlow o t st single =>
      let* '(tok, _, _) := scan_flow_scalar_eager o t st single in Ok tok
  | DPlain o t st indent block =>
      let* '(tok, _, _) := scan_plain_scalar_eager o t st indent block in Ok tok
  | DBlock o t st indent fold =>
      let* '(tok, _, _) := scan_block_scalar_eager o t st indent fold in Ok tok
  end.

(** src/scanner/entry.rs:106-113, [MaybeToken::into_token]. *)
Definition into_token (m : maybe_token) : sres token :=
  match m with
  | Tok t => Ok t
  | Lazy d => eval_deferred d
  end.
