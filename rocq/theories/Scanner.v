(** The token scanner (src/scanner/mod.rs). *)
From Verif Require Export Block Tag Queue.

(** src/scanner/mod.rs:953-959, [StreamState]. *)
Inductive stream_state := SStart | SStream | SDone.

(** src/scanner/mod.rs:43-60, [Scanner]; the [Key] record is an [option]. *)
Record scanner := mkSc {
  sc_offset : nat; sc_state : stream_state; sc_ska : bool;
  sc_st : stats; sc_key : option key_save; sc_cxt : context
}.

(** src/scanner/mod.rs:64-75, [Scanner::new]. *)
Definition scanner0 : scanner := mkSc 0 SStart false stats0 None cxt0.

(** Field updates. *)
Definition set_offset (n : nat) (s : scanner) : scanner :=
  mkSc n (sc_state s) (sc_ska s) (sc_st s) (sc_key s) (sc_cxt s).
Definition set_state (x : stream_state) (s : scanner) : scanner :=
  mkSc (sc_offset s) x (sc_ska s) (sc_st s) (sc_key s) (sc_cxt s).
Definition set_ska (x : bool) (s : scanner) : scanner :=
  mkSc (sc_offset s) (sc_state s) x (sc_st s) (sc_key s) (sc_cxt s).
Definition set_st (x : stats) (s : scanner) : scanner :=
  mkSc (sc_offset s) (sc_state s) (sc_ska s) x (sc_key s) (sc_cxt s).
Definition set_key (x : option key_save) (s : scanner) : scanner :=
  mkSc (sc_offset s) (sc_state s) (sc_ska s) (sc_st s) x (sc_cxt s).
Definition set_cxt (x : context) (s : scanner) : scanner :=
  mkSc (sc_offset s) (sc_state s) (sc_ska s) (sc_st s) (sc_key s) x.

(** src/scanner/entry.rs:80-86, [Ord for TokenEntry]: by read position. *)
Definition entry_cmp (a b : entry) : comparison := Nat.compare (e_read a) (e_read b).

(** src/scanner/mod.rs:41, [Tokens]. *)
Definition tokens := queue entry.

(** Everything [scan_next_token] mutates: the text ([&mut &str]), the scanner
    and the token queue. *)
Record ms := mkMs { m_buf : str; m_sc : scanner; m_q : tokens }.

(** A method of the scanner.  The state is returned on errors too: effects made
    before an error persist in Rust. *)
Definition M (A : Type) := ms -> ms * sres A.
Definition mret {A} (a : A) : M A := fun s => (s, Ok a).
Definition mlift {A} (r : sres A) : M A := fun s => (s, r).
Definition mbind {A B} (m : M A) (k : A -> M B) : M B :=
  fun s => match m s with
           | (s', Ok a) => k a s'
           | (s', Err e) => (s', Err e)
           | (s', Panic) => (s', Panic)
           | (s', Fuel) => (s', Fuel)
           end.
Notation "'do' x '<-' m ';' k" := (mbind m (fun x => k))
  (at level 200, x name, m at level 99, k at level 200, right associativity).
Notation "'do' ' p '<-' m ';' k" := (mbind m (fun x => let 'p := x in k))
  (at level 200, p strict pattern, m at level 99, k at level 200, right associativity).
Notation "m ';;' k" := (mbind m (fun _ => k))
  (at level 100, k at level 200, right associativity).

Definition get_buf : M str := fun s => (s, Ok (m_buf s)).
Definition get_sc : M scanner := fun s => (s, Ok (m_sc s)).
Definition put_buf (b : str) : M unit := fun s => (mkMs b (m_sc s) (m_q s), Ok tt).
Definition upd (f : scanner -> scanner) : M unit :=
  fun s => (mkMs (m_buf s) (f (m_sc s)) (m_q s), Ok tt).

(** src/scanner/macros.rs:242-251, [enqueue!]. *)
Definition enqueue (t : maybe_token) (read : nat) : M unit :=
  fun s => (mkMs (m_buf s) (m_sc s) (q_push (m_q s) (mkEntry t read)), Ok tt).
Definition enqueue_here (t : maybe_token) : M unit :=
  do sc <- get_sc; enqueue t (sread (sc_st sc)).

(** [for _ in 0..n { enqueue!(BlockEnd, mark) }]: the callback of
    [indent_decrement]. *)
Fixpoint enqueue_ends (n mark : nat) : M unit :=
  match n with
  | O => mret tt
  | S n' => enqueue (Tok TBlockEnd) mark ;; enqueue_ends n' mark
  end.

(** [advance!] of the text. *)
Definition advance (n : nat) : M unit :=
  do b <- get_buf; do b' <- mlift (skip b n); put_buf b'.

(** [advance!] of the text and of [self.stats]. *)
Definition advance_st (n : nat) : M unit :=
  advance n ;; upd (fun sc => set_st (supd (sc_st sc) n 0 n) sc).

(** [self.stats += stats]. *)
Definition add_st (d : stats) : M unit := upd (fun sc => set_st (sadd (sc_st sc) d) sc).

(** src/scanner/mod.rs:775-780 and 1065-1087, [unroll_indent]. *)
Definition unroll_indent (column : option nat) : M unit :=
  do sc <- get_sc;
  if is_block (sc_cxt sc) then
    let '(c, n) := indent_decrement (sc_cxt sc) column in
    upd (set_cxt c) ;; enqueue_ends n (sread (sc_st sc))
  else mret tt.

(** src/scanner/mod.rs:1012-1060, [roll_indent]. *)
Definition roll_indent (mark line column : nat) (map : bool) : M unit :=
  do sc <- get_sc;
  let c := sc_cxt sc in
  let tok := Tok (if map then TBlockMappingStart else TBlockSequenceStart) in
  if is_block c then
    if indent_ltb (cur_indent c) column then
      upd (set_cxt (indent_increment c column line map false)) ;; enqueue tok mark
    else if negb map && indent_eqb (cur_indent c) column then
      match c_indents c with
      | e :: _ =>
          if ie_map e then
            upd (set_cxt (indent_increment c column line map true)) ;; enqueue tok mark
          else mret tt
      | [] => mret tt
      end
    else mret tt
  else mret tt.

(** src/scanner/mod.rs:784-815, [expire_stale_saved_key]. *)
Definition expire_stale_saved_key : M unit :=
  do sc <- get_sc;
  match sc_key sc with
  | Some k =>
      if kp_allowed (k_possible k)
         && (Nat.ltb (slines (k_stats k)) (slines (sc_st sc))
             || (N.of_nat (sread (k_stats k)) + 1024 <? N.of_nat (sread (sc_st sc)))%N)
      then
        if kp_required (k_possible k) then mlift (Err MissingValue)
        else upd (set_key (Some (mkKey KNo (k_stats k))))
      else mret tt
  | None => mret tt
  end.

(** src/scanner/mod.rs:870-881, [remove_saved_key]. *)
Definition remove_saved_key : M unit :=
  do sc <- get_sc;
  match sc_key sc with
  | Some k =>
      upd (set_key None) ;;
      if kp_required (k_possible k) then mlift (Err MissingValue) else mret tt
  | None => mret tt
  end.

(** src/scanner/mod.rs:853-868, [save_key]. *)
Definition save_key (required : bool) : M unit :=
  do sc <- get_sc;
  let required :=
    required || is_block (sc_cxt sc) && indent_eqb (cur_indent (sc_cxt sc)) (scol (sc_st sc)) in
  if sc_ska sc then
    remove_saved_key ;; upd (set_key (Some (new_key (sc_st sc) required)))
  else mret tt.

(** src/scanner/mod.rs:819-849, [pop_zero_indent_sequence]. *)
Definition pop_zero_indent_sequence : M unit :=
  do sc <- get_sc; do b <- get_buf;
  match c_indents (sc_cxt sc) with
  | e :: _ =>
      if Nat.ltb (ie_line e) (slines (sc_st sc)) && ie_zero e && negb (ie_map e)
         && negb (at_is b 0 45)
      then
        let '(c, n) := pop_indent (sc_cxt sc) in
        upd (set_cxt c) ;; enqueue_ends n (sread (sc_st sc))
      else mret tt
  | [] => mret tt
  end.

(** src/scanner/mod.rs:931-950, the method [eat_whitespace]. *)
Definition sc_eat_whitespace (o : flags) : M unit :=
  do b <- get_buf;
  do '(rest, d) <- mlift (eat_whitespace o b stats0 true);
  (if Nat.eqb (slines d) 0 then mret tt else upd (set_ska true)) ;;
  advance (consumed b rest) ;; add_st d.

(** src/scanner/mod.rs:226-239, [fetch_stream_start]. *)
Definition fetch_stream_start : M unit :=
  do sc <- get_sc;
  match sc_state sc with
  | SStart =>
      upd (set_ska true) ;; upd (set_state SStream) ;; enqueue_here (Tok TStreamStart)
  | _ => mret tt
  end.

(** src/scanner/mod.rs:241-265, [fetch_stream_end]. *)
Definition fetch_stream_end : M unit :=
  do sc <- get_sc; do b <- get_buf;
  match sc_state sc with
  | SDone => mret tt
  | _ =>
      if is_empty b then
        unroll_indent None ;; remove_saved_key ;; upd (set_state SDone) ;;
        enqueue_here (Tok TStreamEnd)
      else mret tt
  end.

(** src/scanner/mod.rs:267-294, [fetch_document_marker]. *)
Definition fetch_document_marker (start : bool) : M unit :=
  unroll_indent None ;; remove_saved_key ;; upd (set_ska false) ;; advance_st 3 ;;
  enqueue_here (Tok (if start then TDocumentStart else TDocumentEnd)).

(** src/scanner/mod.rs:296-346, [fetch_directive].  [&buffer[1..]] is past the
    ASCII byte checked at 306. *)
Definition fetch_directive (o : flags) : M unit :=
  do base <- get_buf;
  if negb (at_is base 0 37) then mret tt
  else
    mlift (cache_at o base 1 4) ;;
    do body <- mlift (skip base 1);
    do kind <- mlift (directive_kind_of body);
    do '(buf, d) <- mlift (adv base stats0 (1 + directive_len kind));
    do '(tok, buf, d) <- mlift (scan_directive o buf d kind);
    unroll_indent None ;; remove_saved_key ;; upd (set_ska false) ;;
    advance (consumed base buf) ;; add_st d ;; enqueue_here (Tok tok).

(** src/scanner/mod.rs:348-380, [fetch_tag]. *)
Definition fetch_tag (o : flags) : M unit :=
  do base <- get_buf;
  if negb (at_is base 0 33) then mret tt
  else
    do '(tok, amt, d) <- mlift (scan_node_tag o base stats0);
    do buf <- mlift (skip base amt);
    save_key false ;; upd (set_ska false) ;;
    advance (consumed base buf) ;; add_st d ;; enqueue_here (Tok tok).

(** src/scanner/mod.rs:382-421, [fetch_anchor]. *)
Definition fetch_anchor (o : flags) : M unit :=
  do base <- get_buf;
  if at_is base 0 42 || at_is base 0 38 then
    do '(tok, buf, d) <- mlift (scan_anchor o base stats0 (at_is base 0 42));
    save_key false ;; upd (set_ska false) ;;
    advance (consumed base buf) ;; add_st d ;; enqueue_here (Tok tok)
  else mret tt.

(** src/scanner/mod.rs:423-455, [fetch_flow_scalar]. *)
Definition fetch_flow_scalar (o : flags) : M unit :=
  do base <- get_buf;
  if at_is base 0 39 || at_is base 0 34 then
    do '(tok, amt, d) <- mlift (scan_flow_scalar o base stats0 (at_is base 0 39));
    save_key false ;; upd (set_ska false) ;;
    advance amt ;; add_st d ;; enqueue_here tok
  else mret tt.

(** src/scanner/mod.rs:457-482, [fetch_plain_scalar]. *)
Definition fetch_plain_scalar (o : flags) : M unit :=
  do base <- get_buf; do sc <- get_sc;
  do '(tok, amt, st) <- mlift (scan_plain_scalar o base (sc_st sc) (sc_cxt sc));
  save_key false ;; upd (set_ska false) ;;
  advance amt ;; upd (set_st st) ;; enqueue_here tok.

(** src/scanner/mod.rs:484-510, [fetch_block_scalar]. *)
Definition fetch_block_scalar (o : flags) (fold : bool) : M unit :=
  do base <- get_buf; do sc <- get_sc;
  remove_saved_key ;; upd (set_ska true) ;;
  do '(tok, amt, st) <- mlift (scan_block_scalar o base (sc_st sc) (sc_cxt sc) fold);
  advance amt ;; upd (set_st st) ;; enqueue_here tok.

(** src/scanner/mod.rs:512-577, [fetch_explicit_key]. *)
Definition fetch_explicit_key : M unit :=
  do sc <- get_sc;
  let block := is_block (sc_cxt sc) in
  let st := sc_st sc in
  (if block then
     if negb (sc_ska sc) then mlift (Err InvalidKey)
     else roll_indent (sread st) (slines st) (scol st) true
   else mret tt) ;;
  remove_saved_key ;; upd (set_ska block) ;; advance_st 1 ;; enqueue_here (Tok TKey).

(** src/scanner/mod.rs:582-645, [fetch_value]. *)
Definition fetch_value : M unit :=
  do sc <- get_sc;
  upd (set_key None) ;;
  (let other :=
     let block := is_block (sc_cxt sc) in
     let st := sc_st sc in
     (if block then
        if negb (sc_ska sc) then mlift (Err InvalidValue)
        else roll_indent (sread st) (slines st) (scol st) true
      else mret tt) ;;
     upd (set_ska block) in
   match sc_key sc with
   | Some k =>
       if kp_allowed (k_possible k) then
         let st := k_stats k in
         roll_indent (sread st) (slines st) (scol st) true ;;
         enqueue (Tok TKey) (sread st) ;;
         upd (set_ska false)
       else other
   | None => other
   end) ;;
  advance_st 1 ;; enqueue_here (Tok TValue).

(** src/scanner/mod.rs:647-672, [fetch_flow_collection_start]. *)
Definition fetch_flow_collection_start (map : bool) : M unit :=
  upd (fun sc => set_cxt (flow_increment (sc_cxt sc)) sc) ;;
  advance_st 1 ;;
  enqueue_here (Tok (if map then TFlowMappingStart else TFlowSequenceStart)) ;;
  save_key false ;; upd (set_ska true).

(** src/scanner/mod.rs:674-701, [fetch_flow_collection_end]. *)
Definition fetch_flow_collection_end (map : bool) : M unit :=
  remove_saved_key ;;
  do sc <- get_sc;
  do c <- mlift (flow_decrement (sc_cxt sc));
  upd (set_cxt c) ;; upd (set_ska false) ;; advance_st 1 ;;
  enqueue_here (Tok (if map then TFlowMappingEnd else TFlowSequenceEnd)).

(** src/scanner/mod.rs:703-722, [fetch_flow_collection_entry]. *)
Definition fetch_flow_collection_entry : M unit :=
  remove_saved_key ;; upd (set_ska true) ;; advance_st 1 ;; enqueue_here (Tok TFlowEntry).

(** src/scanner/mod.rs:745-759: a sequence entry at the column of the enclosing
    indent moves the top entry's line to the current one. *)
Definition refresh_line (c : context) (st : stats) : context :=
  match c_indents c with
  | e :: r =>
      if Nat.eqb (ie_indent e) (scol st) && Nat.ltb (ie_line e) (slines st)
      then mkCxt (c_flow c) (c_indent c)
             (mkIE (ie_indent e) (ie_map e) (slines st) (ie_zero e) :: r) (c_started c)
      else c
  | [] => c
  end.

(** src/scanner/mod.rs:724-773, [fetch_block_collection_entry]. *)
Definition fetch_block_collection_entry : M unit :=
  do sc <- get_sc;
  let st := sc_st sc in
  (if is_block (sc_cxt sc) && sc_ska sc
   then roll_indent (sread st) (slines st) (scol st) false
   else mlift (Err InvalidBlockEntry)) ;;
  upd (fun sc => set_cxt (refresh_line (sc_cxt sc) (sc_st sc)) sc) ;;
  remove_saved_key ;; upd (set_ska true) ;; advance_st 1 ;; enqueue_here (Tok TBlockEntry).

(** src/scanner/mod.rs:1093-1099, [is_plain_safe_c]. *)
Definition is_plain_safe_c (b : str) (off : nat) (block : bool) : bool :=
  block || negb (is_flow_ind_at b off).

(** src/scanner/mod.rs:885-926, [is_plain_scalar].  The pattern of line 912 matches
    a closing square bracket only as the whole remaining text. *)
Definition is_plain_scalar (b : str) (c : context) : bool :=
  if is_wsZ b then false
  else
    match b with
    | [] => false
    | x :: r =>
        if ((x =? 37) || (x =? 38) || (x =? 42) || (x =? 33) || (x =? 39) || (x =? 34)
            || (x =? 123) || (x =? 91) || (x =? 125) || (x =? 44) || (x =? 124)
            || (x =? 62) || (x =? 35) || (x =? 64) || (x =? 96))%N then false
        else if (x =? 93)%N && is_empty r then false
        else if ((x =? 58) || (x =? 63) || (x =? 45))%N
                && negb (is_plain_safe_c b 1 (is_block c)) then false
        else true
    end.

(** src/scanner/mod.rs:158-223, the token dispatch. *)
Definition dispatch (o : flags) : M unit :=
  do b <- get_buf; do sc <- get_sc;
  let col0 := Nat.eqb (scol (sc_st sc)) 0 in
  let flow := is_flow (sc_cxt sc) in
  let hd c := at_is b 0 c in
  if hd 37%N && col0 then fetch_directive o
  else if (starts_with b (bytes "---") || starts_with b (bytes "..."))
          && (col0 && is_wsZ_at b 3) then fetch_document_marker (hd 45%N)
  else if hd 123%N || hd 91%N then fetch_flow_collection_start (hd 123%N)
  else if hd 125%N || hd 93%N then fetch_flow_collection_end (hd 125%N)
  else if hd 44%N then fetch_flow_collection_entry
  else if hd 45%N && is_wsZ_at b 1 then fetch_block_collection_entry
  else if hd 63%N && (flow || is_wsZ_at b 1) then fetch_explicit_key
  else if hd 58%N && (is_wsZ_at b 1 || flow) then fetch_value
  else if hd 38%N || hd 42%N then fetch_anchor o
  else if hd 33%N then fetch_tag o
  else if (hd 124%N || hd 62%N) && is_block (sc_cxt sc) then fetch_block_scalar o (hd 62%N)
  else if hd 39%N || hd 34%N then fetch_flow_scalar o
  else if is_plain_scalar b (sc_cxt sc) then fetch_plain_scalar o
  else mlift (Err UnknownDelimiter).

(** src/scanner/mod.rs:120-224, [scan_next_token]. *)
Definition scan_next_token (o : flags) : M unit :=
  do sc <- get_sc;
  match sc_state sc with
  | SStart => fetch_stream_start
  | _ =>
      sc_eat_whitespace o ;;
      expire_stale_saved_key ;;
      do sc <- get_sc;
      unroll_indent (Some (scol (sc_st sc))) ;;
      pop_zero_indent_sequence ;;
      do b <- get_buf; do sc <- get_sc;
      if is_empty b || match sc_state sc with SDone => true | _ => false end
      then fetch_stream_end
      else
        mlift (cache o b 4) ;;
        dispatch o
  end.

(** [base.get(offset..)]. *)
Definition get_from (base : str) (off : nat) : option str :=
  if is_boundary base off then Some (skipn off base) else None.

(** src/scanner/mod.rs:89-105, the loop condition of [scan_tokens]. *)
Definition want_more (start : nat) (sc : scanner) (q : tokens) : bool :=
  match sc_state sc with
  | SDone => false
  | _ => Nat.eqb start (q_len q) || key_possible_now (sc_key sc)
  end.

(** src/scanner/mod.rs:94-101, one round: run [scan_next_token] and save the
    offset. *)
Definition scan_round (o : flags) (base : str) (sc : scanner) (q : tokens)
  : scanner * tokens * sres unit :=
  match get_from base (sc_offset sc) with
  | None => (sc, q, Fuel)
  | Some b =>
      let (s, r) := scan_next_token o (mkMs b sc q) in
      let sc' :=
        match r with
        | Ok _ | Err Extend => set_offset (List.length base - List.length (m_buf s)) (m_sc s)
        | _ => m_sc s
        end in
      (sc', m_q s, r)
  end.

(** src/scanner/mod.rs:79-108, [scan_tokens].  If [base.get(offset..)] is [None]
    the Rust loop spins without effect for ever; the model answers [Fuel]. *)
Fixpoint scan_loop (fuel : nat) (o : flags) (base : str) (start : nat)
  (sc : scanner) (q : tokens) : scanner * tokens * sres unit :=
  if want_more start sc q then
    match fuel with
    | O => (sc, q, Fuel)
    | S fuel' =>
        match scan_round o base sc q with
        | (sc', q', Ok _) => scan_loop fuel' o base start sc' q'
        | (sc', q', Err e) => (sc', q', Err e)
        | (sc', q', Panic) => (sc', q', Panic)
        | (sc', q', Fuel) => (sc', q', Fuel)
        end
    end
  else (sc, q, Ok tt).

Definition scan_tokens (o : flags) (base : str) (sc : scanner) (q : tokens)
  : scanner * tokens * sres unit :=
  scan_loop (List.length base + 3) o base (q_len q) sc q.
