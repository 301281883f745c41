(** White space and comments between tokens. *)
From Verif Require Export SpecStream.

Definition space_or_tab (c : N) : Prop := c = 32%N \/ c = 9%N.

(** Nothing, or a number sign and ASCII characters up to the end of the line. *)
Definition comment (s : str) : Prop :=
  s = [] \/ exists r, s = 35%N :: r /\ Forall (fun c => c < 128 /\ c <> 10 /\ c <> 13)%N r.

(** In front of the text [t]: spaces and tabs, after any number of lines of spaces, tabs
    and a comment.  The flag tells whether there are such lines, the number counts the
    spaces and tabs behind the last of them. *)
Inductive filler (t : str) : str -> bool -> nat -> Prop :=
| fill_here s : Forall space_or_tab s -> filler t s false (List.length s)
| fill_line s c b w x n : Forall space_or_tab s -> comment c ->
    b <> [] -> break_len (b ++ w ++ t) = List.length b ->
    filler t w x n -> filler t (s ++ c ++ b ++ w) true n.

(** The same token.  If it stands at or before [p] then at the same place, otherwise
    [n1] bytes into the one text where it is [n2] bytes into the other. *)
Definition same_token (p n1 n2 : nat) (e1 e2 : entry) : Prop :=
  into_token (e_wrap e2) = into_token (e_wrap e1) /\
  (e_read e1 <= p /\ e_read e2 = e_read e1 \/ e_read e1 + n2 = e_read e2 + n1).

(** The same outcome: no error, a panic, or the same error. *)
Definition same_end {A} (x1 x2 : rres A) : Prop :=
  match x1, x2 with
  | Ok _, Ok _ | Panic, Panic => True
  | Err e1, Err e2 => e1 = e2
  | _, _ => False
  end.
