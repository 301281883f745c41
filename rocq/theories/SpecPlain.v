(** Plain scalars: what a source text without quotes stands for.  Nothing here refers to
    the scanner. *)
From Verif Require Export SpecQuoted SpecContent.
Open Scope nat_scope.

(** [space k n s k' r]: all white space at the beginning of [s] up to [r], with [n] line
    breaks, beginning in column [k] and ending in column [k']. *)
Inductive space : nat -> nat -> str -> nat -> str -> Prop :=
| sp_end k s : ~ white s -> space k 0 s k s
| sp_blank k n c s k' r : blank c -> space (S k) n s k' r -> space k n (c :: s) k' r
| sp_break k n s k' r : break_len s <> 0 -> space 0 n (skipn (break_len s) s) k' r -> space k (S n) s k' r.

(** The flow indicators. *)
Definition flow_indicators : list N := [44; 91; 93; 123; 125]%N.
(** A colon before white space or the end of the text ends a plain scalar, in a flow
    collection ([flow]) also a flow indicator. *)
Definition closed (flow : bool) (s : str) : Prop :=
  (exists r, s = 58%N :: r /\ (r = [] \/ white r)) \/
  (flow = true /\ exists c r, s = c :: r /\ In c flow_indicators).
(** After white space a plain scalar goes on in column [k] if there is something other
    than a comment, a document marker and the end of the scalar, indented enough in a
    block collection. *)
Definition goes_on (flow : bool) (indent k : nat) (s : str) : Prop :=
  s <> [] /\ (forall r, s <> 35%N :: r) /\ ~ closed flow s /\ ~ (k = 0 /\ document_marker s) /\
  (flow = false -> indent <= k).

(** [plain flow indent k s v r]: in column [k], [s] begins with (the rest of) a plain
    scalar with value [v], and [r] is the text after it. *)
Inductive plain (flow : bool) (indent : nat) : nat -> str -> str -> str -> Prop :=
| pl_end k s : s = [] \/ closed flow s -> plain flow indent k s [] s
| pl_stop k n s k' s' : white s -> space k n s k' s' -> ~ goes_on flow indent k' s' -> plain flow indent k s [] s
| pl_char k c s v r : scalar_value c -> ~ white (encode c ++ s) -> ~ closed flow (encode c ++ s) ->
    plain flow indent (S k) s v r -> plain flow indent k (encode c ++ s) (encode c ++ v) r
| pl_blanks k g k' s v r : g <> [] -> space k 0 (g ++ s) k' s -> goes_on flow indent k' s ->
    plain flow indent k' s v r -> plain flow indent k (g ++ s) (g ++ v) r
| pl_fold k n s k' s' v r : space k (S n) s k' s' -> goes_on flow indent k' s' ->
    plain flow indent k' s' v r -> plain flow indent k s (folded (S n) ++ v) r.

(** What a plain scalar may begin with (YAML 1.2, production 126). *)
Definition plain_start (flow : bool) (s : str) : Prop :=
  exists c r, s = c :: r /\ ~ white s /\
    ~ In c [44; 91; 93; 123; 125; 35; 38; 42; 33; 124; 62; 39; 34; 37; 64; 96]%N /\
    (In c [45; 63; 58]%N -> r <> [] /\ ~ white r /\ (flow = true -> forall d q, r = d :: q -> ~ In d flow_indicators)).

(** ** Lines of a plain scalar *)
(** Words without white space, colons and a number sign in front. *)
Definition plain_word (w : str) : Prop :=
  all_ascii w /\ no_white w /\ Forall (fun c => c <> 58)%N w /\ exists c r, w = c :: r /\ c <> 35%N.
(** The first one begins with no indicator and no dot. *)
Definition first_word (w : str) : Prop :=
  plain_word w /\ forall c r, w = c :: r ->
    ~ In c [44; 91; 93; 123; 125; 35; 38; 42; 33; 124; 62; 39; 34; 37; 64; 96; 45; 63; 46]%N.
(** White space of any number of lines, the last one of them indented. *)
Definition indented (g : list piece) : Prop := exists g' p, g = g' ++ [p] /\ (p = Space \/ p = Tab).

(** Texts that are not empty and end with no blank and no line break character. *)
Definition trimmed (v : str) : Prop := exists a c, v = a ++ [c] /\ ~ In c [32; 9; 10; 13]%N.
