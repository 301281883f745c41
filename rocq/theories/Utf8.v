(** Rust's notion of valid UTF-8: what [std::str::from_utf8] accepts (Unicode
    15 table 3-7), written as a byte-level checker. *)
From Verif Require Export Base.

Definition rng (lo hi b : N) : bool := (lo <=? b)%N && (b <=? hi)%N.

(** One step of [core::str::validations::run_utf8_validation]: length of the
    well-formed character at the head of [s], 0 if there is none. *)
Definition utf8_char (s : str) : nat :=
  match s with
  | [] => 0
  | a :: r =>
      if (a <? 128)%N then 1
      else if rng 194%N 223%N a then
        match r with b :: _ => if is_cont b then 2 else 0 | _ => 0 end
      else if rng 224%N 239%N a then
        match r with
        | b :: c :: _ =>
            if (if (a =? 224)%N then rng 160%N 191%N b
                else if (a =? 237)%N then rng 128%N 159%N b
                else is_cont b) && is_cont c
            then 3 else 0
        | _ => 0
        end
      else if rng 240%N 244%N a then
        match r with
        | b :: c :: d :: _ =>
            if (if (a =? 240)%N then rng 144%N 191%N b
                else if (a =? 244)%N then rng 128%N 143%N b
                else is_cont b) && is_cont c && is_cont d
            then 4 else 0
        | _ => 0
        end
      else 0
  end.

(** [str::from_utf8(s).is_ok()].  The fuel is the length of [s]; it is enough
    because every step consumes at least one byte. *)
Fixpoint valid_fuel (fuel : nat) (s : str) : bool :=
  match s with
  | [] => true
  | _ =>
      match fuel with
      | O => false
      | S fuel' =>
          match utf8_char s with
          | O => false
          | n => valid_fuel fuel' (skipn n s)
          end
      end
  end.

Definition valid_utf8 (s : str) : bool := valid_fuel (List.length s) s.

(** [String::from_utf8(v).unwrap()] / [str::from_utf8(v).unwrap()]. *)
Definition utf8_unwrap {E : Type} (s : str) : res E str :=
  if valid_utf8 s then Ok s else Panic.
