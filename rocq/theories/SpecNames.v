(** Names of anchors and aliases, and versions of directives.  Nothing here refers to
    the scanner. *)
From Verif Require Export SpecContent.
Open Scope nat_scope.

(** ** Anchors and aliases *)
Definition alphanumeric (c : N) : Prop := (48 <= c <= 57 \/ 65 <= c <= 90 \/ 97 <= c <= 122)%N.
(** The characters that may stand after a name: space, line feed, ? , ] } % @ and the
    backtick. *)
Definition after_name : list N := [32; 10; 63; 44; 93; 125; 37; 64; 96]%N.
Definition indicator (alias : bool) : N := if alias then 42%N else 38%N.
Definition naming (alias : bool) (c : cow) : token := if alias then TAlias c else TAnchor c.

(** [ends P r]: [r] does not go on with a character of [P]. *)
Definition ends (P : N -> Prop) (r : str) : Prop := forall c r', r = c :: r' -> ~ P c.

(** ** Versions *)
Definition digit (c : N) : Prop := (48 <= c <= 57)%N.
(** The number a sequence of decimal digits stands for. *)
Definition decimal (ds : str) : N := fold_left (fun v d => 10 * v + (d - 48))%N ds 0%N.
Definition version_number (ds : str) (v : N) : Prop :=
  ds <> [] /\ Forall digit ds /\ v = decimal ds /\ (v <= 255)%N.
(** Spaces and tabs. *)
Definition spaces (w : str) : Prop := Forall blank w.
Definition yaml : str := bytes "%YAML".
Definition not_white_space (c : N) : Prop := (c < 128 /\ c <> 32 /\ c <> 9 /\ c <> 10 /\ c <> 13)%N.
