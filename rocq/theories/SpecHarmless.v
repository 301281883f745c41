(** Texts that no reader panics on. *)
From Verif Require Export SpecQuoted.
Open Scope nat_scope.

(** [header_line b]: what follows a [|] or [>] in an ASCII text makes it the header of a
    block scalar: at most two digits or signs, white space, perhaps a comment, and the end
    of the line. *)
Definition header_sign (x : N) : Prop := (48 <= x <= 57 \/ x = 43 \/ x = 45)%N.
Definition ends_line (x : N) : Prop := (x = 10 \/ x = 13)%N.
Definition header_line (b : str) : Prop :=
  exists h s c r, b = h ++ s ++ c ++ r /\ List.length h <= 2 /\ Forall header_sign h /\
    Forall (fun x => x = 32 \/ x = 9)%N s /\
    (c = [] \/ exists c', c = 35%N :: c') /\ Forall (fun x => ~ ends_line x) c /\
    (r = [] \/ exists x r', r = x :: r' /\ ends_line x).

(** Texts of ASCII characters with no percent escape of an octet above 127, no escape of
    something that is no character and, for eager readers, no header of a block scalar. *)
Definition harmless (lazy : bool) (t : str) : Prop :=
  Forall (fun c => c < 128)%N t /\
  (lazy = false -> forall a c b, t = a ++ c :: b -> c = 124%N \/ c = 62%N -> ~ header_line b) /\
  (forall a h b, t = a ++ 37%N :: h :: b -> hex_digit h -> (digit_value h < 8)%N) /\
  (forall a e v b, t = a ++ e ++ b -> denotes e v -> scalar_value v).
