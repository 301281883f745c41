(** Text that carries no token: blanks, line breaks and comments. *)
From Verif Require Export Macros.

(** [skips comment s s']: everything insignificant at the beginning of [s] has been
    left out in [s']; [comment] tells whether [s] begins inside of a comment, which a
    line break ends. *)
Inductive skips : bool -> str -> str -> Prop :=
| sk_end s : is_blank s = false -> is_break s = false -> at_is s 0 35 = false -> skips false s s
| sk_eof c : skips c [] []
| sk_blank c s s' : is_blank s = true -> skips c (skipn 1 s) s' -> skips c s s'
| sk_break c s s' : is_break s = true -> skips false (skipn (break_amt s) s) s' -> skips c s s'
| sk_open s s' : at_is s 0 35 = true -> skips true (skipn 1 s) s' -> skips false s s'
| sk_comment s s' : s <> [] -> is_break s = false -> skips true (skipn 1 s) s' -> skips true s s'.
