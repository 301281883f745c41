(** UTF-8 after the Unicode standard: the encoding form of a scalar value, and
    well-formed byte strings as concatenations of encodings. *)
From Coq Require Import List NArith.
Import ListNotations.
Open Scope N_scope.

(** D76: a code point that is not a surrogate (0xD800..0xDFFF). *)
Definition scalar_value (v : N) : Prop := v <= 1114111 /\ ~ (55296 <= v <= 57343).

(** D92, table 3-6: the bits of the value, six per trailing byte. *)
Definition encode (v : N) : list N :=
  if v <? 128 then [v]
  else if v <? 2048 then [192 + v / 64; 128 + v mod 64]
  else if v <? 65536 then [224 + v / 4096; 128 + v / 64 mod 64; 128 + v mod 64]
  else [240 + v / 262144; 128 + v / 4096 mod 64; 128 + v / 64 mod 64; 128 + v mod 64].

Definition well_formed (b : list N) : Prop :=
  exists points, Forall scalar_value points /\ b = flat_map encode points.
