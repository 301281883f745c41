(** Spelling of texts in tag URIs: characters written as they are or percent-encoded
    octet by octet. *)
From Coq Require Import List NArith String.
From Verif Require Import SpecUtf8.
Import ListNotations.
Open Scope N_scope.

(** Hexadecimal digits and their values. *)
Inductive hex_value : N -> N -> Prop :=
| hex_dec v : v < 10 -> hex_value (48 + v) v          (* 0-9 *)
| hex_upper v : 10 <= v < 16 -> hex_value (55 + v) v  (* A-F *)
| hex_lower v : 10 <= v < 16 -> hex_value (87 + v) v. (* a-f *)

(** Characters that stand for themselves: letters, digits and
    [& ' ( ) * + - . / ! $ : ; = ? @ _ ~]; in verbatim tags also
    [, \[ \]]. *)
Definition letter_or_digit (b : N) : Prop :=
  48 <= b <= 57 \/ 65 <= b <= 90 \/ 97 <= b <= 122.
Definition uri_literal (verbatim : bool) (b : N) : Prop :=
  letter_or_digit b \/
  In b [38; 39; 40; 41; 42; 43; 45; 46; 47; 33; 36; 58; 59; 61; 63; 64; 95; 126] \/
  (verbatim = true /\ In b [44; 91; 93]).

(** [%HH] for each byte. *)
Inductive percent : list N -> list N -> Prop :=
| percent_nil : percent [] []
| percent_cons h x l y b t s :
    hex_value h x -> hex_value l y -> b = 16 * x + y -> percent t s ->
    percent (37 :: h :: l :: t) (b :: s).

(** [spelled verbatim t s]: [t] is a spelling of the text [s]. *)
Inductive spelled (verbatim : bool) : list N -> list N -> Prop :=
| spelled_nil : spelled verbatim [] []
| spelled_lit b t s :
    uri_literal verbatim b -> spelled verbatim t s -> spelled verbatim (b :: t) (b :: s)
| spelled_char v e t s :
    scalar_value v -> percent e (encode v) -> spelled verbatim t s ->
    spelled verbatim (e ++ t) (encode v ++ s).

(** Percent-encoding of all bytes of a text, with upper case digits. *)
Definition hex_digit (v : N) : N := if v <? 10 then 48 + v else 55 + v.
Definition percent_encode (s : list N) : list N :=
  flat_map (fun b => [37; hex_digit (b / 16); hex_digit (b mod 16)]) s.

(** Tag handles that are complete in themselves: [!!] and [!name!]. *)
Definition full_handle (h : list N) : Prop :=
  exists name, h = 33 :: name ++ [33] /\ Forall letter_or_digit name.
Definition blanks (w : list N) : Prop := Forall (fun b => b = 32 \/ b = 9) w.

(** What may follow the URI of a tag: an ASCII character that cannot be part of it. *)
Definition uri_stop (verbatim : bool) (s : list N) : Prop :=
  exists c r, s = c :: r /\ c < 128 /\ ~ uri_literal verbatim c /\ c <> 37.
