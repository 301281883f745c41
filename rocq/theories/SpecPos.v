(** Positions in a text, independently of the scanner: a reading goes from a text
    to one of its suffixes, one character or one line break at a time. *)
From Verif Require Export Macros.

(** [reads s st s' st']: reading from the beginning of [s], at position [st], one
    arrives at the beginning of the suffix [s'], at position [st'].  A line break
    (LF, CR, CR LF, NEL, LS, PS) is read as a whole, moves to the next line and
    back to column 0.  Anything else stays on the line. *)
Inductive reads : str -> stats -> str -> stats -> Prop :=
| reads_here s st : reads s st s st
| reads_text s n st s' st' :
    n <= List.length s -> (forall k, k < n -> is_break (skipn k s) = false) ->
    is_boundary s n = true ->
    reads (skipn n s) (mkStats (sread st + n) (slines st) (scol st + n)) s' st' ->
    reads s st s' st'
| reads_break s st s' st' :
    is_break s = true -> is_boundary s (break_amt s) = true ->
    reads (skipn (break_amt s) s) (mkStats (sread st + break_amt s) (S (slines st)) 0) s' st' ->
    reads s st s' st'.
