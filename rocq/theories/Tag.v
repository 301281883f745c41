(** Tags and directives (src/scanner/tag.rs, src/scanner/directive.rs). *)
From Verif Require Export Lex.

(** src/scanner/tag.rs:275-287, URI bytes that are copied as they are. *)
Definition uri_byte (b : N) : bool :=
  (rng 38 43 b || rng 45 57 b || is_upper b || is_lower b
   || (b =? 33) || (b =? 36) || (b =? 58) || (b =? 59) || (b =? 61) || (b =? 63)
   || (b =? 64) || (b =? 95) || (b =? 126))%N.

(** src/scanner/tag.rs:296, further bytes allowed in verbatim tags. *)
Definition uri_verbatim_byte (b : N) : bool :=
  ((b =? 44) || (b =? 91) || (b =? 93))%N.

(** src/scanner/tag.rs:268-322, one round of the loop of [scan_tag_uri].
    State: text, stats, scratch, can_borrow. *)
Definition tag_uri_body (o : flags) (base : str) (verbatim : bool)
  (s : str * stats * str * bool)
  : sres (step (str * stats * str * bool) (str * stats * str * bool)) :=
  let '(buf, st, scratch, borrow) := s in
  let* _ := cache o buf 1 in
  match buf with
  | [] => Err UnexpectedEOF
  | b :: _ =>
      if uri_byte b || verbatim && uri_verbatim_byte b then
        let scratch := if borrow then scratch else scratch ++ [b] in
        let* '(buf', st') := adv buf st 1 in
        Ok (Next (buf', st', scratch, borrow))
      else if (b =? 37)%N then
        let scratch := if borrow then scratch ++ firstn (consumed base buf) base else scratch in
        let* '(out, amt) := tag_uri_unescape o buf in
        let* '(buf', st') := adv buf st amt in
        Ok (Next (buf', st', scratch ++ out, false))
      else Ok (Done s)
  end.

(** src/scanner/tag.rs:257-336, [scan_tag_uri]: text, amount read, stats,
    can_borrow. *)
Definition scan_tag_uri (o : flags) (base : str) (st : stats) (borrow verbatim : bool)
  : sres (cow * nat * stats * bool) :=
  let* '(buf, st, scratch, borrow) :=
    loop (fuel_of base) (tag_uri_body o base verbatim) (base, st, [], borrow) in
  let amt := consumed base buf in
  if borrow then
    let* t := slice base 0 amt in Ok (Borrowed t, amt, st, borrow)
  else
    let* t := utf8_unwrap scratch in Ok (Owned t, amt, st, borrow).

(** src/scanner/tag.rs:397-402, [TagHandle]. *)
Inductive tag_handle := HPrimary (h : str) | HSecondary (h : str) | HNamed (h : str).
Definition handle_str (h : tag_handle) : str :=
  match h with HPrimary h | HSecondary h | HNamed h => h end.

(** src/scanner/tag.rs:340-394, [scan_tag_handle]: the handle and its length if
    unambiguous, and the stats. *)
Definition scan_tag_handle (o : flags) (base : str) (st : stats)
  : sres (option (tag_handle * nat) * stats) :=
  let* _ := cache o base 1 in
  match base with
  | [] => Err UnexpectedEOF
  | b :: _ =>
      if (b =? 33)%N then
        let* rest := skip base 1 in
        let* n := take_while o is_alnum rest in
        let off := 1 + n in
        let* _ := cache_at o base off 1 in
        if at_is base off 33 then
          let* h := slice base 0 (off + 1) in
          Ok (Some (match n with O => HSecondary h | _ => HNamed h end, off + 1),
              supd st (off + 1) 0 (off + 1))
        else if Nat.eqb n 0 && is_ws_at base off then
          let* h := slice base 0 1 in
          Ok (Some (HPrimary h, 1), supd st 1 0 1)
        else if Nat.ltb off (List.length base) then Ok (None, st)
        else Err UnexpectedEOF
      else Err InvalidTagHandle
  end.

(** src/scanner/tag.rs:88-142, [scan_tag_directive]: token, amount read, stats. *)
Definition scan_tag_directive (o : flags) (base : str) (st : stats)
  : sres (token * nat * stats) :=
  let* '(h, st) := scan_tag_handle o base st in
  match h with
  | None => Err InvalidTagHandle
  | Some (handle, amt) =>
      let handle := handle_str handle in
      let* buf := skip base amt in
      let* _ := cache o buf 1 in
      if is_empty buf then Err UnexpectedEOF
      else if negb (is_blank buf) then Err InvalidTagPrefix
      else
        let* '(buf, st) := eat_whitespace o buf st false in
        let* '(prefix, amt, st, borrow) := scan_tag_uri o buf st true false in
        if is_ws_at buf amt then
          let tok := TTagDirective (Borrowed handle) prefix in
          let tok := if borrow then tok else token_into_owned tok in
          let* buf := skip buf amt in
          Ok (tok, consumed base buf, st)
        else if is_empty (skipn amt buf) then Err UnexpectedEOF
        else Err InvalidTagPrefix
  end.

(** src/scanner/tag.rs:434-444, [assemble_tag]. *)
Definition assemble_tag (handle : str) (suffix : cow) (borrow : bool) : token :=
  let t := TTag (Borrowed handle) suffix in
  if borrow then t else token_into_owned t.

(** src/scanner/tag.rs:157-247, [scan_node_tag]: token, amount read, stats.  In the
    verbatim branch the two bytes of the opening and the closing bracket are not
    added to the stats (lines 183, 191, 244). *)
Definition scan_node_tag (o : flags) (base : str) (st : stats)
  : sres (token * nat * stats) :=
  let* _ := cache o base 2 in
  let* '(tok, buf, amt, st) :=
    if starts_with base (bytes "!<") then
      let* buf := skip base 2 in
      let* '(uri, amt, st, borrow) := scan_tag_uri o buf st true true in
      let* _ := cache_at o buf (amt + 1) 1 in
      if at_is buf (amt + 1) 62 then
        Ok (assemble_tag [] uri borrow, buf, amt + 1, st)
      else if Nat.ltb (amt + 1) (List.length buf) then Err InvalidTagSuffix
      else Err UnexpectedEOF
    else
      let* '(h, st) := scan_tag_handle o base st in
      match h with
      | Some (HPrimary h, amt) =>
          Ok (TTag (Borrowed h) (Borrowed []), base, amt, st)
      | Some (HSecondary h, amt) | Some (HNamed h, amt) =>
          let* buf := skip base amt in
          let* '(suffix, amt, st, borrow) := scan_tag_uri o buf st true false in
          Ok (assemble_tag h suffix borrow, buf, amt, st)
      | None =>
          let* _ := cache o base 1 in
          let* handle := slice base 0 1 in
          let* '(buf, st) := adv base st 1 in
          let* '(suffix, amt, st, borrow) := scan_tag_uri o buf st true false in
          Ok (assemble_tag handle suffix borrow, buf, amt, st)
      end in
  let* buf := skip buf amt in
  Ok (tok, consumed base buf, st).

(** src/scanner/directive.rs:68-72, [DirectiveKind]. *)
Inductive directive_kind := KVersion | KTag.

(** src/scanner/directive.rs:81-95, [DirectiveKind::new]. *)
Definition directive_kind_of (s : str) : sres directive_kind :=
  if starts_with s (bytes "YAML") then Ok KVersion
  else if starts_with s (bytes "TAG") then Ok KTag
  else Err UnknownDirective.

(** src/scanner/directive.rs:98-105. *)
Definition directive_len (k : directive_kind) : nat :=
  match k with KVersion => 4 | KTag => 3 end.

(** The [atoi] crate (version 0.4, not in the repository) on a run of ASCII
    digits, at type [u8]: [None] without digits or on overflow (checked
    arithmetic), assumed from its documentation. *)
Fixpoint atoi_acc (s : str) (acc : N) : option N :=
  match s with
  | [] => Some acc
  | b :: r =>
      let v := (acc * 10 + (b - 48))%N in
      if (v <=? 255)%N then atoi_acc r v else None
  end.
Definition atoi_u8 (s : str) : option N :=
  match s with [] => None | _ => atoi_acc s 0 end.

(** src/scanner/directive.rs:108-114, [scan_directive_version]. *)
Definition scan_directive_version (o : flags) (s : str) : sres (N * nat) :=
  let* n := take_while o is_digit s in
  match atoi_u8 (firstn n s) with
  | Some v => Ok (v, n)
  | None => Err InvalidVersion
  end.

(** src/scanner/directive.rs:20-64, [scan_directive]. *)
Definition scan_directive (o : flags) (base : str) (st : stats) (k : directive_kind)
  : sres (token * str * stats) :=
  let* '(buf, st) := eat_whitespace o base st false in
  match k with
  | KVersion =>
      let* '(major, n) := scan_directive_version o buf in
      let* '(buf, st) := adv buf st n in
      let* _ := cache o buf 1 in
      match buf with
      | [] => Err UnexpectedEOF
      | b :: _ =>
          if (b =? 46)%N then
            let* '(buf, st) := adv buf st 1 in
            let* '(minor, n) := scan_directive_version o buf in
            let* '(buf, st) := adv buf st n in
            Ok (TVersionDirective major minor, buf, st)
          else Err InvalidVersion
      end
  | KTag =>
      let* '(tok, amt, st) := scan_tag_directive o buf st in
      let* buf := skip buf amt in
      Ok (tok, buf, st)
  end.
