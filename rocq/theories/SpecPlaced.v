(** What a token with content stands for at the place where it is found.  Nothing here
    refers to the scanner. *)
From Verif Require Export SpecLayout SpecPlain SpecBlock SpecContent.
Open Scope nat_scope.

(** [written t s n c e]: at [n], in column [c], where [s] is open, stands what the token
    [e] says, and the token ends where its position is.  The lines of a plain scalar are
    further to the right than the innermost block collection, those of a block scalar
    likewise. *)
Definition written (t : str) (s : layout) (n c : nat) (e : entry) : Prop :=
  let after := skipn (e_read e) t in
  let place := innermost (blocks s) in
  match e_wrap e with
  | Tok (TScalar v Plain) =>
      plain (negb (Nat.eqb (flows s) 0)) (S place) c (skipn n t) (cow_str v) after
  | Tok (TScalar v SingleQuote) =>
      exists body, skipn n t = 39%N :: body /\ quoted true body (cow_str v) after
  | Tok (TScalar v DoubleQuote) =>
      exists body, skipn n t = 34%N :: body /\ (no_wide_escape t -> quoted false body (cow_str v) after)
  | Tok (TScalar v Literal) => flows s = 0 /\
      exists b w, skipn n t = block_indicator false :: b /\ block false place b w after /\ but_final_break w (cow_str v)
  | Tok (TScalar v Folded) => flows s = 0 /\
      exists b w, skipn n t = block_indicator true :: b /\ block true place b w after /\ but_final_break w (cow_str v)
  | Tok (TAnchor _) => stands_at t n 38
  | Tok (TAlias _) => stands_at t n 42
  | Tok (TTag _ _) => stands_at t n 33
  | Tok TFlowEntry => stands_at t n 44
  | Tok TDocumentStart => c = 0 /\ document_marker (skipn n t) /\ stands_at t n 45
  | Tok TDocumentEnd => c = 0 /\ document_marker (skipn n t) /\ stands_at t n 46
  | Tok (TVersionDirective _ _) | Tok (TTagDirective _ _) => c = 0 /\ stands_at t n 37
  | _ => False
  end.
