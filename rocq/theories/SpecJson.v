(** JSON texts (RFC 8259) and what they say.  Nothing here refers to the library. *)
From Verif Require Export SpecYaml.
Open Scope nat_scope.

(** Numbers and the literals [true], [false] and [null] are kept as they are written. *)
Inductive value := JBare (s : str) | JString (s : str) | JArray (l : list value) | JObject (l : list (str * value)).

Definition ws (s : str) : Prop := Forall (fun c => In c [32; 9; 10; 13]%N) s.

(** ** Numbers *)
Definition digits (s : str) : Prop := s <> [] /\ Forall (fun c => 48 <= c <= 57)%N s.
Inductive int : str -> Prop :=
| int_zero : int [48%N]
| int_more c s : (49 <= c <= 57)%N -> Forall (fun c => 48 <= c <= 57)%N s -> int (c :: s).
Inductive frac : str -> Prop := frac_none : frac [] | frac_some s : digits s -> frac (46%N :: s).
Inductive exp : str -> Prop :=
| exp_none : exp []
| exp_some e g s : (e = 101 \/ e = 69)%N -> g = [] \/ g = [43%N] \/ g = [45%N] -> digits s -> exp (e :: g ++ s).
Definition number (s : str) : Prop :=
  exists m i f e, s = m ++ i ++ f ++ e /\ (m = [] \/ m = [45%N]) /\ int i /\ frac f /\ exp e.
Definition literals : list str := [bytes "true"; bytes "false"; bytes "null"].

Section Json.
  (** Whether there are escapes of two halves, and which white space there is between a
      name, as it is written, and its colon. *)
  Variable halves : Prop.
  Variable gaps : str -> str -> Prop.

  (** ** Strings, between the quotes *)
  Definition short_escapes : list (N * N) :=
    [(34, 34); (92, 92); (47, 47); (98, 8); (102, 12); (110, 10); (114, 13); (116, 9)]%N.
  Definition unit (u : str) (n : N) : Prop :=
    exists ds, u = 92%N :: 117%N :: ds /\ List.length ds = 4 /\ Forall hex_digit ds /\ hex_number ds = n.
  Inductive chars : str -> str -> Prop :=
  | ch_end : chars [] []
  | ch_char c s v : scalar_value c -> (32 <= c)%N -> c <> 34%N -> c <> 92%N -> chars s v ->
      chars (encode c ++ s) (encode c ++ v)
  | ch_short c x s v : In (c, x) short_escapes -> chars s v -> chars (92%N :: c :: s) (x :: v)
  | ch_unit u n s v : unit u n -> scalar_value n -> chars s v -> chars (u ++ s) (encode n ++ v)
  | ch_halves u n u' n' s v : halves -> unit u n -> (55296 <= n < 56320)%N -> unit u' n' -> (56320 <= n' < 57344)%N ->
      chars s v -> chars (u ++ u' ++ s) (encode (65536 + (n - 55296) * 1024 + (n' - 56320)) ++ v).
  Definition quoted_string (t v : str) : Prop := exists s, t = 34%N :: s ++ [34%N] /\ chars s v.

  (** ** Values *)
  Inductive is_value : str -> value -> Prop :=
  | va_literal s : In s literals -> is_value s (JBare s)
  | va_number s : number s -> is_value s (JBare s)
  | va_string t v : quoted_string t v -> is_value t (JString v)
  | va_no_array w : ws w -> is_value (91%N :: w ++ [93%N]) (JArray [])
  | va_array t l : elements t l -> is_value (91%N :: t ++ [93%N]) (JArray l)
  | va_no_object w : ws w -> is_value (123%N :: w ++ [125%N]) (JObject [])
  | va_object t l : members t l -> is_value (123%N :: t ++ [125%N]) (JObject l)
  with element : str -> value -> Prop :=
  | el_value w t v w' : ws w -> is_value t v -> ws w' -> element (w ++ t ++ w') v
  with elements : str -> list value -> Prop :=
  | es_one t v : element t v -> elements t [v]
  | es_more t v t' l : element t v -> elements t' l -> elements (t ++ 44%N :: t') (v :: l)
  with members : str -> list (str * value) -> Prop :=
  | me_one w k n w' t v : ws w -> quoted_string k n -> ws w' -> gaps k w' -> element t v ->
      members (w ++ k ++ w' ++ 58%N :: t) [(n, v)]
  | me_more w k n w' t v t' l : ws w -> quoted_string k n -> ws w' -> gaps k w' -> element t v -> members t' l ->
      members (w ++ k ++ w' ++ 58%N :: t ++ 44%N :: t') ((n, v) :: l).
End Json.

(** All of JSON, except for halves of pairs on their own. *)
Definition json : str -> value -> Prop := element True (fun _ _ => True).

(** No pairs, and the colon is on the line of the name and at most 1024 bytes from its
    beginning. *)
Definition near (k w : str) : Prop :=
  Forall (fun c => c = 32 \/ c = 9)%N w /\ (N.of_nat (List.length k + List.length w) <= 1024)%N.
Definition plain_json : str -> value -> Prop := element False near.

(** ** What a value says *)
Fixpoint deeds (k : node_kind) (v : value) : list deed :=
  match v with
  | JBare s => [Text (bare k) s Plain]
  | JString s => [Text (bare k) s DoubleQuote]
  | JArray l => OpenSeq (bare k) :: flat_map (deeds Entry) l ++ [CloseSeq]
  | JObject l => OpenMap (bare k) :: flat_map (fun m => Text (bare Key) (fst m) DoubleQuote :: deeds Value (snd m)) l ++ [CloseMap]
  end.
(** One document without markers. *)
Definition document (v : value) : list deed :=
  Begin (1, 2)%N default_prefixes true :: deeds Root v ++ [Finish true].
