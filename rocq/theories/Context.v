(** Indentation, flow nesting and implicit keys (src/scanner/context.rs,
    src/scanner/key.rs). *)
From Verif Require Export Macros.

(** src/scanner/context.rs:176-193, [IndentEntry].  [ie_map] is the [kind] field
    ([BlockMappingStart] if true, [BlockSequenceStart] if false, the only two
    values it takes: context.rs:199-203). *)
Record indent_entry := mkIE {
  ie_indent : nat; ie_map : bool; ie_line : nat; ie_zero : bool
}.

(** src/scanner/context.rs:25-34, [Context].  The head of [c_indents] is the top of
    the stack (Rust: the last element of the vector). *)
Record context := mkCxt {
  c_flow : nat; c_indent : nat; c_indents : list indent_entry; c_started : bool
}.

(** src/scanner/context.rs:41-49, [Context::new]. *)
Definition cxt0 : context := mkCxt 0 0 [] false.

(** src/scanner/context.rs:68-71 and 110-113. *)
Definition is_flow (c : context) : bool := negb (Nat.eqb (c_flow c) 0).
Definition is_block (c : context) : bool := negb (is_flow c).

(** src/scanner/context.rs:73-79, [flow_increment].  The overflow check of [usize]
    cannot fire before 2^64 opening brackets and is left out. *)
Definition flow_increment (c : context) : context :=
  mkCxt (S (c_flow c)) (c_indent c) (c_indents c) (c_started c).

(** src/scanner/context.rs:81-87, [flow_decrement]. *)
Definition flow_decrement (c : context) : sres context :=
  match c_flow c with
  | O => Err IntOverflow
  | S f => Ok (mkCxt f (c_indent c) (c_indents c) (c_started c))
  end.

(** src/scanner/context.rs:90-97, [indent()]; [None] is the "-1st" indent. *)
Definition cur_indent (c : context) : option nat :=
  if c_started c then Some (c_indent c) else None.

(** src/scanner/context.rs:261-271 and 285-295: [Indent == usize], [Indent < usize]. *)
Definition indent_eqb (i : option nat) (n : nat) : bool :=
  match i with Some k => Nat.eqb k n | None => false end.
Definition indent_ltb (i : option nat) (n : nat) : bool :=
  match i with Some k => Nat.ltb k n | None => true end.

(** src/scanner/context.rs:309-321, [Indent + usize]. *)
Definition indent_add (i : option nat) (n : nat) : nat :=
  match i with Some k => k + n | None => n end.

(** src/scanner/context.rs:239-242, [as_usize]. *)
Definition indent_usize (i : option nat) : nat :=
  match i with Some k => k | None => 0 end.

(** src/scanner/context.rs:119-127, [indent_increment]; [zero] is set by the caller
    (mod.rs:1052). *)
Definition indent_increment (c : context) (column line : nat) (map zero : bool) : context :=
  mkCxt (c_flow c) column (mkIE (c_indent c) map line zero :: c_indents c) true.

(** [Indent(Some(i)) > column], derived [Ord] on [Option<usize>]. *)
Definition indent_gt (i : nat) (column : option nat) : bool :=
  match column with None => true | Some k => Nat.ltb k i end.

(** src/scanner/context.rs:142-148, the loop of [indent_decrement]: the new
    indent, the remaining stack, the number of levels popped. *)
Fixpoint pop_indents (l : list indent_entry) (i : nat) (column : option nat)
  : nat * list indent_entry * nat :=
  if indent_gt i column then
    match l with
    | [] => (i, [], 0)
    | e :: r =>
        let '(i', r', n) := pop_indents r (ie_indent e) column in (i', r', S n)
    end
  else (i, l, 0).

(** src/scanner/context.rs:132-152, [indent_decrement]: new context and the number
    of times the callback runs. *)
Definition indent_decrement (c : context) (column : option nat) : context * nat :=
  if is_block c then
    let '(i, l, n) := pop_indents (c_indents c) (c_indent c) column in
    (mkCxt (c_flow c) i l (c_started c), n)
  else (c, 0).

(** src/scanner/context.rs:154-170, [pop_indent] (callers ignore the returned
    bool): new context and number of callback runs. *)
Definition pop_indent (c : context) : context * nat :=
  match c_indents c with
  | [] => (c, 0)
  | e :: r => (mkCxt (c_flow c) (ie_indent e) r (c_started c), 1)
  end.

(** src/scanner/key.rs:180-185, [KeyPossible]. *)
Inductive key_possible := KNo | KYes | KRequired.

(** src/scanner/key.rs:134-138, [KeySave]; the [Key] record (80-83) is an
    [option] of it. *)
Record key_save := mkKey { k_possible : key_possible; k_stats : stats }.

(** src/scanner/key.rs:190-199. *)
Definition kp_allowed (k : key_possible) : bool :=
  match k with KNo => false | _ => true end.
Definition kp_required (k : key_possible) : bool :=
  match k with KRequired => true | _ => false end.

(** src/scanner/key.rs:142-151, [KeySave::new]. *)
Definition new_key (s : stats) (required : bool) : key_save :=
  mkKey (if required then KRequired else KYes) s.

(** src/scanner/key.rs:107-112, [Key::possible]. *)
Definition key_possible_now (k : option key_save) : bool :=
  match k with Some s => kp_allowed (k_possible s) | None => false end.
