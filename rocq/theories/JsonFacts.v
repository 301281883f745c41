(** The events of JSON texts, and JSON texts that are not read. *)
From Verif Require Import SpecJson SpecUtf8 SpecTape YamlEvents ContentFacts JsonYaml SpecOwned SpecContent.
From Coq Require Import Lia.
Open Scope nat_scope.

Lemma json_events t v debug : all_ascii t -> plain_json t v ->
  exists es evs,
    run_events peek_source debug (List.length es + 1) parser0 (snd (events_new (Borrow t) false))
      = map (fun x => Ok (Some x)) es ++ [Ok None] /\
    map ev_data es = EvStreamStart :: evs ++ [EvStreamEnd] /\ map shows evs = map Some (document v).
Proof. intros A J. exact (stream_events t _ debug A (json_stream t v A J)). Qed.
Lemma json_source_events t v src debug : all_ascii t -> plain_json t v -> SpecOwned.steady src -> bytes_of src = t ->
  exists es evs,
    run_events peek_source debug (List.length es + 1) parser0 (snd (events_new (Own (owned_new src)) false))
      = map (fun x => Ok (Some x)) es ++ [Ok None] /\
    map ev_data es = EvStreamStart :: evs ++ [EvStreamEnd] /\ map shows evs = map Some (document v).
Proof. intros A J S B. exact (source_events t _ src debug A (json_stream t v A J) S B). Qed.

(** ** Writing JSON texts *)
Section Write.
  Variable h : Prop.
  Lemma w_char c s v : ((32 <=? c) && (c <? 128) && negb (c =? 34) && negb (c =? 92))%N = true -> chars h s v -> chars h (c :: s) (c :: v).
  Proof.
    intros H S. assert (E : encode c = [c]) by (apply ContentFacts.encode_ascii; lia).
    change (chars h ([c] ++ s) ([c] ++ v)). rewrite <- E. constructor; [unfold scalar_value; lia|lia..|exact S].
  Qed.
  Lemma w_string s v : chars h s v -> quoted_string h (34%N :: s ++ [34%N]) v.
  Proof. exists s. auto. Qed.
  Variable g : str -> str -> Prop.
  Lemma w_element t v : is_value h g t v -> element h g t v.
  Proof. intros V. rewrite <- (app_nil_r t). apply (el_value h g [] t v []); [constructor|exact V|constructor]. Qed.
End Write.
Ltac written := vm_compute; repeat first [apply ch_end | apply w_char; [reflexivity|]].
Ltac spell := repeat match goal with |- context [bytes ?s] => let v := eval vm_compute in (bytes s) in change (bytes s) with v end.
Ltac white_space := repeat (constructor; [cbn; tauto|]); constructor.

(** An array of a number, an object and a string with escapes, in an object. *)
Definition json_sample : str :=
  bytes " {""k y"" : [-1.5e+3, {" ++ [10; 9]%N ++ bytes "}," ++ [13; 10]%N ++ bytes "null ], ""s"":""a\n\u00e9 ""}" ++ [10%N].
Definition json_value : value :=
  JObject [(bytes "k y", JArray [JBare (bytes "-1.5e+3"); JObject []; JBare (bytes "null")]); (bytes "s", JString ([97; 10; 195; 169; 32]%N))].
Lemma sample_json : all_ascii json_sample /\ plain_json json_sample json_value.
Proof.
  split; [repeat constructor|].
  unfold plain_json. refine (el_value False near (bytes " ") (bytes "{""k y"" : [-1.5e+3, {" ++ [10; 9]%N ++ bytes "}," ++ [13; 10]%N ++ bytes "null ], ""s"":""a\n\u00e9 ""}") json_value [10%N] ltac:(white_space) _ ltac:(white_space)).
  refine (va_object False near (bytes """k y"" : [-1.5e+3, {" ++ [10; 9]%N ++ bytes "}," ++ [13; 10]%N ++ bytes "null ], ""s"":""a\n\u00e9 """) _ _).
  refine (me_more False near [] (bytes """k y""") (bytes "k y") (bytes " ") (bytes " [-1.5e+3, {" ++ [10; 9]%N ++ bytes "}," ++ [13; 10]%N ++ bytes "null ]") _
    (bytes " ""s"":""a\n\u00e9 """) _ ltac:(white_space) _ ltac:(white_space) _ _ _).
  - apply (w_string False (bytes "k y")). written.
  - split; [repeat constructor|cbn; lia].
  - refine (el_value False near (bytes " ") (bytes "[-1.5e+3, {" ++ [10; 9]%N ++ bytes "}," ++ [13; 10]%N ++ bytes "null ]") _ [] ltac:(white_space) _ ltac:(white_space)).
    refine (va_array False near (bytes "-1.5e+3, {" ++ [10; 9]%N ++ bytes "}," ++ [13; 10]%N ++ bytes "null ") _ _).
    refine (es_more False near (bytes "-1.5e+3") _ (bytes " {" ++ [10; 9]%N ++ bytes "}," ++ [13; 10]%N ++ bytes "null ") _ _ _).
    + apply w_element, va_number. exists (bytes "-"), (bytes "1"), (bytes ".5"), (bytes "e+3"). split; [reflexivity|]. split; [right; reflexivity|].
      split; [spell; apply int_more; [lia|constructor]|]. split; [apply (frac_some (bytes "5")); split; [discriminate|spell; repeat constructor; lia]|].
      apply (exp_some 101%N (bytes "+") (bytes "3")); [left; reflexivity|right; left; reflexivity|split; [discriminate|spell; repeat constructor; lia]].
    + refine (es_more False near (bytes " {" ++ [10; 9]%N ++ bytes "}") _ ([13; 10]%N ++ bytes "null ") _ _ _).
      * refine (el_value False near (bytes " ") (bytes "{" ++ [10; 9]%N ++ bytes "}") _ [] ltac:(white_space) _ ltac:(white_space)).
        apply (va_no_object False near [10; 9]%N). white_space.
      * apply es_one. refine (el_value False near [13; 10]%N (bytes "null") _ (bytes " ") ltac:(white_space) _ ltac:(white_space)).
        apply va_literal. cbn. auto.
  - refine (me_one False near (bytes " ") (bytes """s""") (bytes "s") [] (bytes """a\n\u00e9 """) _ ltac:(white_space) _ ltac:(white_space) _ _).
    + apply (w_string False (bytes "s")). written.
    + split; [constructor|cbn; lia].
    + apply w_element, va_string. apply (w_string False (bytes "a\n\u00e9 ")). apply w_char; [reflexivity|]. apply (ch_short False 110%N 10%N); [cbn; tauto|].
      apply (ch_unit False (bytes "\u00e9") 233%N (bytes " ")); [|unfold scalar_value; lia|written].
      exists (bytes "00e9"). split; [reflexivity|]. split; [reflexivity|]. split; [|reflexivity]. spell; repeat constructor; unfold hex_digit; lia.
Qed.

(** ** What is not read *)
Lemma colon_below : exists t v, json t v /\ all_ascii t /\
  exists e, In (Err e) (run_events peek_source true 9 parser0 (snd (events_new (Borrow t) false))).
Proof.
  exists (bytes "{""a""" ++ [10%N] ++ bytes ":1}"), (JObject [(bytes "a", JBare (bytes "1"))]). split; [|split; [repeat constructor|]].
  - apply w_element. refine (va_object True _ (bytes """a""" ++ [10%N] ++ bytes ":1") _ _).
    refine (me_one True _ [] (bytes """a""") (bytes "a") [10%N] (bytes "1") _ ltac:(white_space) _ ltac:(white_space) Logic.I _).
    + apply (w_string True (bytes "a")). written.
    + apply w_element, va_number. exists [], (bytes "1"), [], []. split; [reflexivity|]. split; [left; reflexivity|]. split; [spell; apply int_more; [lia|constructor]|]. split; constructor.
  - eexists. vm_compute. do 5 right. left. reflexivity.
Qed.
Lemma pair_panics : exists t v, json t v /\ all_ascii t /\ In Panic (run_events peek_source true 3 parser0 (snd (events_new (Borrow t) false))).
Proof.
  exists (bytes """\ud83d\ude00"""), (JString [240; 159; 152; 128]%N). split; [|split; [repeat constructor|vm_compute; auto]].
  apply w_element, va_string. apply (w_string True (bytes "\ud83d\ude00")).
  apply (ch_halves True (bytes "\ud83d") 55357%N (bytes "\ude00") 56832%N [] []); [exact Logic.I| |lia| |lia|constructor].
  - exists (bytes "d83d"). split; [reflexivity|]. split; [reflexivity|]. split; [|reflexivity]. spell; repeat constructor; unfold hex_digit; lia.
  - exists (bytes "de00"). split; [reflexivity|]. split; [reflexivity|]. split; [|reflexivity]. spell; repeat constructor; unfold hex_digit; lia.
Qed.
Lemma wide_panics : exists t v, json t v /\ In Panic (run_events peek_source true 3 parser0 (snd (events_new (Borrow t) false))).
Proof.
  exists ([34; 195; 169; 34]%N), (JString [195; 169]%N). split; [|vm_compute; auto].
  apply w_element, va_string. apply (w_string True [195; 169]%N).
  apply (ch_char True 233%N [] []); [unfold scalar_value; lia|lia|lia|lia|constructor].
Qed.
