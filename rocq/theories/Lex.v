(** Whitespace, anchors and escapes (src/scanner/mod.rs:964-1008,
    src/scanner/anchor.rs, src/scanner/scalar/escape.rs). *)
From Verif Require Export Token Context.

(** Loop fuel that suffices for any loop consuming text [s]. *)
Definition fuel_of (s : str) : nat := S (List.length s).

(** [base.len() - buffer.len()]. *)
Definition consumed (base buffer : str) : nat := List.length base - List.length buffer.

(** src/scanner/mod.rs:970-1005, one round of the loop of [eat_whitespace]. *)
Definition eat_ws_body (o : flags) (comments : bool) (s : str * stats * bool)
  : sres (step (str * stats * bool) (str * stats)) :=
  let '(buf, st, chomp) := s in
  let* _ := cache o buf 1 in
  let blank := is_blank buf in
  let brk := is_break buf in
  let next chomp' :=
    if brk then
      let* '(buf', st') := adv_line buf st in Ok (Next (buf', st', chomp'))
    else
      let* '(buf', st') := adv buf st 1 in Ok (Next (buf', st', chomp')) in
  if blank then next chomp
  else if brk then next false
  else if comments && at_is buf 0 35 then next true
  else if chomp && negb (is_empty buf) then next chomp
  else Ok (Done (buf, st)).

(** src/scanner/mod.rs:964-1008, [eat_whitespace]: returns the remaining text
    (whose length gives the returned amount) and the updated stats. *)
Definition eat_whitespace (o : flags) (base : str) (st : stats) (comments : bool)
  : sres (str * stats) :=
  loop (fuel_of base) (eat_ws_body o comments) (base, st, false).

(** src/scanner/anchor.rs:85-101 = directive.rs:116-132 = tag.rs:415-431,
    [take_while]: length of the longest prefix of bytes satisfying [f].  The
    index moves by the width of the character just checked, which is 1 because
    every [f] used accepts ASCII bytes only. *)
Fixpoint take_while (o : flags) (f : N -> bool) (s : str) : sres nat :=
  let* _ := cache o s 1 in
  match s with
  | b :: r => if f b then let* n := take_while o f r in Ok (S n) else Ok 0
  | [] => Ok 0
  end.

(** src/scanner/anchor.rs:46, the bytes that may follow an anchor name: space,
    newline, and the characters question mark, comma, closing brackets,
    percent, at, backtick. *)
Definition anchor_follow (b : N) : bool :=
  (b =? 32)%N || (b =? 10)%N || (b =? 63)%N || (b =? 44)%N || (b =? 93)%N
  || (b =? 125)%N || (b =? 37)%N || (b =? 64)%N || (b =? 96)%N.

(** src/scanner/anchor.rs:17-57, [scan_anchor]. *)
Definition scan_anchor (o : flags) (base : str) (st : stats) (alias : bool)
  : sres (token * str * stats) :=
  let* '(buf, st) := adv base st 1 in
  let* n := take_while o is_alnum buf in
  let name := firstn n buf in
  let* '(buf, st) := adv buf st n in
  if is_empty name then Err InvalidAnchorName
  else
    let* _ := cache o buf 1 in
    match buf with
    | [] => Err UnexpectedEOF
    | b :: _ =>
        if anchor_follow b
        then Ok (if alias then TAlias (Borrowed name) else TAnchor (Borrowed name), buf, st)
        else Err InvalidAnchorName
    end.

(** src/scanner/scalar/escape.rs:216-230, [as_hex]. *)
Definition as_hex (b : N) : N :=
  (if rng 65 70 b then b - 65 + 10
   else if rng 97 102 b then b - 97 + 10
   else b - 48)%N.

(** src/scanner/scalar/escape.rs:167-177, reading [n] hex digits. *)
Fixpoint read_hex (n : nat) (buf : str) (value : N) : sres N :=
  match n with
  | O => Ok value
  | S n' =>
      match buf with
      | [] => Err UnexpectedEOF
      | b :: r =>
          if is_hex_byte b then read_hex n' r (N.shiftl value 4 + as_hex b)%N
          else Err UnknownEscape
      end
  end.

(** src/scanner/scalar/escape.rs:181-203, the UTF-8 bytes written for a value.
    [as u8] truncates to 8 bits. *)
Definition encode_point (v : N) : str :=
  (if v <=? 127 then [v]
   else if v <=? 2047 then
     [N.lor 192 (N.shiftr v 6); N.lor 128 (N.land v 63)]
   else if v <=? 65535 then
     [N.lor 224 (N.shiftr v 12); N.lor 128 (N.land (N.shiftr v 6) 63);
      N.lor 128 (N.land v 63)]
   else
     [N.lor 240 (N.land (N.shiftr v 18) 255); N.lor 128 (N.land (N.shiftr v 12) 63);
      N.lor 128 (N.land (N.shiftr v 6) 63); N.lor 128 (N.land v 63)])%N.

(** src/scanner/scalar/escape.rs:48-73, the escape table: the bytes written, or
    the number of hex digits that follow. *)
Inductive escape := Write (s : str) | Hex (n : nat).
Definition escape_of (b : N) : option escape :=
  (if b =? 48 then Some (Write [0])
   else if b =? 97 then Some (Write [7])
   else if b =? 98 then Some (Write [8])
   else if (b =? 116) || (b =? 9) then Some (Write [9])
   else if b =? 110 then Some (Write [10])
   else if b =? 118 then Some (Write [11])
   else if b =? 102 then Some (Write [12])
   else if b =? 114 then Some (Write [13])
   else if b =? 101 then Some (Write [27])
   else if b =? 32 then Some (Write [32])
   else if b =? 34 then Some (Write [34])
   else if b =? 47 then Some (Write [47])
   else if b =? 92 then Some (Write [92])
   else if b =? 78 then Some (Write [194; 133])
   else if b =? 95 then Some (Write [194; 160])
   else if b =? 76 then Some (Write [226; 128; 168])
   else if b =? 80 then Some (Write [226; 128; 169])
   else if b =? 120 then Some (Hex 2)
   else if b =? 117 then Some (Hex 4)
   else if b =? 85 then Some (Hex 8)
   else None)%N.

(** src/scanner/scalar/escape.rs:27-86, [flow_unescape]: bytes pushed to the
    scratch space and amount read. *)
Definition flow_unescape (o : flags) (base : str) : sres (str * nat) :=
  let* _ := cache o base 1 in
  if negb (at_is base 0 92) then Ok ([], 0)
  else
    let* buf := skip base 1 in
    let* _ := cache o buf 1 in
    match buf with
    | [] => Err UnexpectedEOF
    | b :: _ =>
        match escape_of b with
        | None => Err UnknownEscape
        | Some (Write w) =>
            let* buf := skip buf 1 in
            Ok (w, consumed base buf)
        | Some (Hex n) =>
            let* buf := skip buf 1 in
            let* _ := cache o buf n in
            let* v := read_hex n buf 0 in
            let* buf := skip buf n in
            Ok (encode_point v, consumed base buf)
        end
    end.

(** src/scanner/scalar/escape.rs:125-132, octets of the codepoint announced by its
    first octet. *)
Definition octet_len (b : N) : option nat :=
  if (N.land b 128 =? 0)%N then Some 1
  else if (N.land b 224 =? 192)%N then Some 2
  else if (N.land b 240 =? 224)%N then Some 3
  else if (N.land b 248 =? 240)%N then Some 4
  else None.

(** src/scanner/scalar/escape.rs:103-150, the loop of [tag_uri_unescape].
    [pending] is [codepoint_len] ([None] on the first round, then the octets
    still expected).  State: text, octets written. *)
Definition uri_unescape_body (o : flags) (s : str * str * option nat)
  : sres (step (str * str * option nat) (str * str)) :=
  let '(buf, out, pending) := s in
  let* _ := cache o buf 3 in
  match buf with
  | p :: h :: l :: _ =>
      if (p =? 37)%N && is_hex_byte h && is_hex_byte l then
        let octet := (N.shiftl (as_hex h) 4 + as_hex l)%N in
        let* len :=
          match pending with
          | None => match octet_len octet with
                    | Some n => Ok n
                    | None => Err UnknownEscape
                    end
          | Some n => if (N.land octet 192 =? 128)%N then Ok n else Err UnknownEscape
          end in
        let* buf' := skip buf 3 in
        match len with
        | S (S k) => Ok (Next (buf', out ++ [octet], Some (S k)))
        | _ => Ok (Done (buf', out ++ [octet]))
        end
      else Err UnknownEscape
  | _ => Err UnexpectedEOF
  end.

(** src/scanner/scalar/escape.rs:93-153, [tag_uri_unescape]: octets pushed and
    amount read. *)
Definition tag_uri_unescape (o : flags) (base : str) : sres (str * nat) :=
  let* '(buf, out) := loop (fuel_of base) (uri_unescape_body o) (base, [], None) in
  Ok (out, consumed base buf).
