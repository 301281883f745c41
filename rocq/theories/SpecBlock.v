(** Block scalars: what a source text with a header line and indented lines stands for.
    Nothing here refers to the scanner. *)
From Verif Require Export SpecQuoted.
Open Scope nat_scope.

(** ** Header *)
(** An indication of the final line breaks ([+]: keep all, [-]: keep none), perhaps with
    a zero before or behind it. *)
Definition headers : list str :=
  [[]; [43]; [45]; [48]; [48; 43]; [43; 48]; [48; 45]; [45; 48]]%N.
(** Line feeds at the end of the value if there are [n] line breaks after the contents:
    by default at most one. *)
Definition final_breaks (h : str) (n : nat) : str :=
  if existsb (N.eqb 43) h then repeat 10%N n
  else if existsb (N.eqb 45) h then []
  else match n with 0 => [] | _ => [10%N] end.

(** [line s w r]: [w] is the rest of the line at the beginning of [s], [r] begins with
    its line break or is empty. *)
Inductive line : str -> str -> str -> Prop :=
| ln_end s : s = [] \/ break_len s <> 0 -> line s [] s
| ln_char c s w r : scalar_value c -> break_len (encode c ++ s) = 0 -> line s w r ->
    line (encode c ++ s) (encode c ++ w) r.

(** The rest of the header line: blanks and perhaps a comment, then a line break or the
    end of the text.  [r] begins the next line. *)
Inductive header_rest : str -> str -> Prop :=
| hr_blank c s r : blank c -> header_rest s r -> header_rest (c :: s) r
| hr_comment s w r : line (35%N :: s) w r -> header_rest (35%N :: s) (skipn (break_len r) r)
| hr_end s : s = [] \/ break_len s <> 0 -> header_rest s (skipn (break_len s) s).

(** ** Lines *)
(** [leading k m n s k' m' r]: from column [k], [n] lines of spaces; the first other line
    begins with [r] in column [k'], [m'] is the greatest column any of them reached,
    those before ([m]) included. *)
Inductive leading : nat -> nat -> nat -> str -> nat -> nat -> str -> Prop :=
| ld_end k m s : ~ white s -> leading k m 0 s k (Nat.max m k) s
| ld_space k m n s k' m' r : leading (S k) m n s k' m' r -> leading k m n (32%N :: s) k' m' r
| ld_break k m n s k' m' r : break_len s <> 0 -> leading 0 (Nat.max m k) n (skipn (break_len s) s) k' m' r ->
    leading k m (S n) s k' m' r.

(** [margin indent k n s k' r]: from column [k], [n] line breaks and the indentation of
    the next line, at most up to column [indent]; it goes on with [r] in column [k']. *)
Inductive margin (indent : nat) : nat -> nat -> str -> nat -> str -> Prop :=
| mg_full k s : indent <= k -> margin indent k 0 s k s
| mg_end k s : k < indent -> ~ white s -> margin indent k 0 s k s
| mg_space k n s k' r : k < indent -> margin indent (S k) n s k' r -> margin indent k n (32%N :: s) k' r
| mg_break k n s k' r : k < indent -> break_len s <> 0 -> margin indent 0 n (skipn (break_len s) s) k' r ->
    margin indent k (S n) s k' r.

(** What [n] line breaks between two lines stand for. *)
Definition joint (fold : bool) (n : nat) : str := if fold then folded n else repeat 10%N n.

(** [text_lines fold indent s v n r]: [s] begins, in column [indent], with the contents
    of a line.  [v] is that line joined with the further lines, [n] the number of line
    breaks after the last one, [r] the text that does not belong to the scalar. *)
Inductive text_lines (fold : bool) (indent : nat) : str -> str -> nat -> str -> Prop :=
| tl_eof s w : line s w [] -> text_lines fold indent s w 0 []
| tl_last s w s1 n k r : line s w s1 -> break_len s1 <> 0 ->
    margin indent 0 n (skipn (break_len s1) s1) k r -> k <> indent \/ r = [] ->
    text_lines fold indent s w (S n) r
| tl_next s w s1 n r v n' r' : line s w s1 -> break_len s1 <> 0 ->
    margin indent 0 n (skipn (break_len s1) s1) indent r -> r <> [] ->
    text_lines fold indent r v n' r' -> text_lines fold indent s (w ++ joint fold (S n) ++ v) n' r'.

(** [block fold parent s v r]: after the indicator, [s] is the source of a block scalar
    with value [v] in a collection of column [parent], and [r] is the text after it.  The
    indentation is that of the first line that is not empty, if no line before it has
    more spaces. *)
Inductive block (fold : bool) (parent : nat) : str -> str -> str -> Prop :=
| bk_lines h s s1 n m s2 v n' r : In h headers -> header_rest s s1 ->
    leading 0 0 n s1 (Nat.max m (S parent)) m s2 -> s2 <> [] ->
    text_lines fold (Nat.max m (S parent)) s2 v n' r ->
    block fold parent (h ++ s) (repeat 10%N n ++ v ++ final_breaks h n') r
| bk_empty h s s1 n k m s2 : In h headers -> header_rest s s1 ->
    leading 0 0 n s1 k m s2 -> k <> Nat.max m (S parent) \/ s2 = [] ->
    block fold parent (h ++ s) (if existsb (N.eqb 43) h then repeat 10%N n else []) s2.

(** Equal up to a line break at the end. *)
Definition but_final_break (v y : str) : Prop :=
  exists w, (v = w \/ v = w ++ [10%N]) /\ (y = w \/ y = w ++ [10%N] \/ y = w ++ [13%N]).
(** No line break other than a line feed. *)
Definition line_feeds_only (t : str) : Prop := Forall (fun c => c <> 13 /\ c <> 194 /\ c <> 226)%N t.

(** Indicators of literal and folded block scalars. *)
Definition block_indicator (fold : bool) : N := if fold then 62%N else 124%N.
(** [a]: a whole header line, [r] begins the next line. *)
Definition header_line (a r : str) : Prop :=
  exists h s, a = h ++ s /\ In h headers /\ header_rest (s ++ r) r.
(** [b]: after a header without indication of the final line breaks, a single line [y]
    that is the last of the text and ends with a line feed. *)
Definition last_line (b y : str) : Prop :=
  exists h s k, b = h ++ s /\ (h = [] \/ h = [48%N]) /\ header_rest s (repeat 32%N k ++ y ++ [10%N]) /\ ~ In 10%N y.

(** ** Lines *)
(** A line of ASCII characters. *)
Definition text_line (w : str) : Prop := w <> [] /\ Forall (fun c => c < 128 /\ c <> 10 /\ c <> 13)%N w.
(** A block scalar of a first line and further ones, each after some empty lines, all
    indented by [S k] spaces, with [m] line feeds at the end. *)
Definition block_text (fold : bool) (h : str) (k : nat) (w0 : str) (l : list (nat * str)) (m : nat) : str :=
  block_indicator fold :: h ++ 10%N :: repeat 32%N (S k) ++ w0 ++
    flat_map (fun nw => repeat 10%N (S (fst nw)) ++ repeat 32%N (S k) ++ snd nw) l ++ repeat 10%N m.
Definition block_content (fold : bool) (w0 : str) (l : list (nat * str)) : str :=
  w0 ++ flat_map (fun nw => joint fold (S (fst nw)) ++ snd nw) l.
