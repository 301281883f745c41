(** Quoted scalars: what a source text between quotes stands for.  Nothing here refers
    to the scanner. *)
From Verif Require Export SpecUtf8 SpecStream.
Open Scope nat_scope.

(** ** Escapes of double quoted scalars *)
(** The character after the backslash and the code point it stands for (YAML 1.2,
    section 5.7). *)
Definition escape_table : list (N * N) :=
  [(48, 0); (97, 7); (98, 8); (116, 9); (9, 9); (110, 10); (118, 11); (102, 12); (114, 13);
   (101, 27); (32, 32); (34, 34); (47, 47); (92, 92); (78, 133); (95, 160); (76, 8232); (80, 8233)]%N.
(** The letters of numeric escapes and the number of digits that follow. *)
Definition numeric_escapes : list (N * nat) := [(120%N, 2%nat); (117%N, 4%nat); (85%N, 8%nat)].

Definition digit_value (h : N) : N :=
  (if h <=? 57 then h - 48 else if h <=? 70 then h - 55 else h - 87)%N.
Definition hex_number (ds : str) : N := fold_left (fun v h => 16 * v + digit_value h)%N ds 0%N.

(** [denotes e v]: the escape written [e] stands for the code point [v]. *)
Inductive denotes : str -> N -> Prop :=
| den_letter c v : In (c, v) escape_table -> denotes [92%N; c] v
| den_number c n ds : In (c, n) numeric_escapes -> List.length ds = n -> Forall hex_digit ds ->
    denotes (92%N :: c :: ds) (hex_number ds).

(** ** White space and folding *)
Definition blank (c : N) : Prop := (c = 32 \/ c = 9)%N.
Definition white (s : str) : Prop := (exists c r, s = c :: r /\ blank c) \/ break_len s <> 0.

(** [gap l n s r l']: all white space at the beginning of [s] up to [r], with [n] line
    breaks; [l] and [l'] tell whether [s] and [r] begin a line. *)
Inductive gap : bool -> nat -> str -> str -> bool -> Prop :=
| gap_end l s : ~ white s -> gap l 0 s s l
| gap_blank l n c s r l' : blank c -> gap false n s r l' -> gap l n (c :: s) r l'
| gap_break l n s r l' : break_len s <> 0 -> gap true n (skipn (break_len s) s) r l' ->
    gap l (S n) s r l'.

(** One break becomes a space, n + 1 breaks become n line feeds. *)
Definition folded (n : nat) : str := match n with 1 => [32%N] | _ => repeat 10%N (n - 1) end.

(** The beginning of a document marker. *)
Definition document_marker (s : str) : Prop :=
  exists r, (s = bytes "---" ++ r \/ s = bytes "..." ++ r) /\ (r = [] \/ white r).

(** [quoted single s v r]: after the opening quote, [s] is the source of a scalar with
    value [v] up to the closing quote, and [r] is the text after that quote. *)
Inductive quoted (single : bool) : str -> str -> str -> Prop :=
| q_close r : ~ (single = true /\ exists r', r = 39%N :: r') ->
    quoted single ((if single then 39%N else 34%N) :: r) [] r
| q_char c s v r : scalar_value c -> ~ white (encode c ++ s) -> c <> (if single then 39 else 34)%N ->
    (single = false -> c <> 92%N) -> quoted single s v r ->
    quoted single (encode c ++ s) (encode c ++ v) r
| q_pair s v r : single = true -> quoted single s v r ->
    quoted single (39 :: 39 :: s)%N (39 :: v)%N r
| q_escape e c s v r : single = false -> denotes e c -> scalar_value c -> quoted single s v r ->
    quoted single (e ++ s) (encode c ++ v) r
| q_blanks g s v r : g <> [] -> gap false 0 (g ++ s) s false -> quoted single s v r ->
    quoted single (g ++ s) (g ++ v) r
| q_fold n s s' v r l : gap false (S n) s s' l -> (l = true -> ~ document_marker s') ->
    quoted single s' v r -> quoted single s (folded (S n) ++ v) r
| q_join n s s' v r l : single = false -> break_len s <> 0 -> gap false (S n) s s' l ->
    (l = true -> ~ document_marker s') ->
    quoted single s' v r -> quoted single (92%N :: s) (repeat 10%N n ++ v) r.

(** Texts in which the digits of each escape of eight digits begin with 000 or 001. *)
Definition no_wide_escape (t : str) : Prop :=
  forall a b, t = a ++ 92%N :: 85%N :: b -> exists d r, b = 48%N :: 48%N :: d :: r /\ (d = 48 \/ d = 49)%N.
