(** What a consumer of a text gets from a reader. *)
From Verif Require Export SpecQuoted.
Open Scope nat_scope.

(** [yields t o l]: whatever the order of its requests, a consumer of [t] meets no
    error and takes a first part of [l], and some order of requests gives all of [l]. *)
Definition yields (t : str) (o : flags) (l : list entry) : Prop :=
  (forall s l' x, consumes (open t o) s = (l', x) -> (exists r, x = Ok r) /\ exists rest, l = l' ++ rest) /\
  exists s r, consumes (open t o) s = (l, Ok r).

(** The tokens of a text that is one scalar. *)
Definition lone (tok : token) (n : nat) : list entry :=
  [mkEntry (Tok TStreamStart) 0; mkEntry (Tok tok) n; mkEntry (Tok TStreamEnd) n].

Definition all_ascii (s : str) : Prop := Forall (fun c => c < 128)%N s.
Definition style_of (single : bool) : scalar_style := if single then SingleQuote else DoubleQuote.
Definition quote_of (single : bool) : N := if single then 39%N else 34%N.

(** A text in single quotes, each quote of it doubled. *)
Definition in_single_quotes (v : str) : str :=
  39%N :: flat_map (fun c => if (c =? 39)%N then [39; 39]%N else [c]) v ++ [39%N].
Definition no_white (s : str) : Prop := Forall (fun c => c <> 32 /\ c <> 9 /\ c <> 10 /\ c <> 13)%N s.

(** ** Lines of a quoted scalar *)
Inductive piece := Space | Tab | LineFeed | CrLf.
Definition spell (p : piece) : str :=
  match p with Space => [32%N] | Tab => [9%N] | LineFeed => [10%N] | CrLf => [13; 10]%N end.
Definition spelled (g : list piece) : str := flat_map spell g.
Definition breaks (g : list piece) : nat :=
  List.length (filter (fun p => match p with LineFeed | CrLf => true | _ => false end) g).

(** Words without white space, quotes and backslashes that do not look like the
    beginning of a document marker. *)
Definition word (w : str) : Prop :=
  w <> [] /\ all_ascii w /\ no_white w /\ Forall (fun c => c <> 39 /\ c <> 34 /\ c <> 92)%N w /\
  forall r, w <> bytes "---" ++ r /\ w <> bytes "..." ++ r.

(** A first word and further ones, each after white space. *)
Definition source (w0 : str) (l : list (list piece * str)) : str :=
  w0 ++ flat_map (fun gw => spelled (fst gw) ++ snd gw) l.
(** White space without breaks stays, with breaks it is folded. *)
Definition between (g : list piece) : str := if Nat.eqb (breaks g) 0 then spelled g else folded (breaks g).
Definition meaning (w0 : str) (l : list (list piece * str)) : str :=
  w0 ++ flat_map (fun gw => between (fst gw) ++ snd gw) l.
