(** Property C20: deferred scalars. *)
From Verif Require Import SpecContent SpecStream SpecDefer DeferStream.
Open Scope nat_scope.

(** C20: whatever an eager reader delivers, a lazy reader asked in the same way delivers
    at the same places, and each of its tokens evaluates to the eager one.  Partial: ASCII
    texts without two backslashes in a row, and block scalars may lack the line break at
    their end. *)
Theorem C20_deferred_scalars_partial :
  forall (t : str) (o o' : flags) (s : list request), all_ascii t -> no_double t ->
    lazy_mode o = false -> lazy_mode o' = true ->
    let (l, x) := consumes (open t o) s in let (l', x') := consumes (open t o') s in
    exists a b, l' = a ++ b /\ Forall2 stands_for l a /\
      forall r, x = Ok r -> b = [] /\ exists r', x' = Ok r'.
Proof. exact deferred_stream. Qed.
Print Assumptions C20_deferred_scalars_partial.

Definition asks (n : nat) : list request := List.concat (repeat [Fill; Pull] n).
Definition lazily : flags := mkFlags false true.
Definition at_once : flags := mkFlags false false.

(** Three deferred scalars, one of each kind, and what they evaluate to. *)
Example C20_deferred_example :
  let t := bytes "- 'a''b'" ++ [10%N] ++ bytes "- c d" ++ [10%N] ++ bytes "- >" ++ [10%N] ++ bytes " e" in
  let (l, x) := consumes (open t lazily) (asks 9) in
  map (fun e => into_token (e_wrap e)) l =
    [Ok TStreamStart; Ok TBlockSequenceStart; Ok TBlockEntry; Ok (TScalar (Owned (bytes "a'b")) SingleQuote);
     Ok TBlockEntry; Ok (TScalar (Owned (bytes "c d")) Plain);
     Ok TBlockEntry; Ok (TScalar (Borrowed (bytes "e")) Folded); Ok TBlockEnd] /\
  List.length (filter (fun e => match e_wrap e with Lazy _ => true | _ => false end) l) = 3.
Proof. vm_compute. split; reflexivity. Qed.

(** C20 fails for block scalars: the line break at the end is lost. *)
Theorem C20_block_refuted :
  exists t l l' r r' c c',
    consumes (open t at_once) (asks 4) = (l, Ok r) /\ consumes (open t lazily) (asks 4) = (l', Ok r') /\
    map (fun e => into_token (e_wrap e)) l = [Ok TStreamStart; Ok TBlockSequenceStart; Ok TBlockEntry; Ok (TScalar c Literal)] /\
    map (fun e => into_token (e_wrap e)) l' = [Ok TStreamStart; Ok TBlockSequenceStart; Ok TBlockEntry; Ok (TScalar c' Literal)] /\
    cow_str c = [120%N; 10%N] /\ cow_str c' = [120%N].
Proof.
  exists (bytes "- |" ++ [10%N] ++ bytes "  x" ++ [10%N] ++ bytes "- y").
  do 4 eexists. exists (Borrowed [120%N; 10%N]), (Borrowed [120%N]).
  split; [vm_compute; reflexivity|]. split; [vm_compute; reflexivity|]. vm_compute. repeat split; reflexivity.
Qed.
Print Assumptions C20_block_refuted.

(** C20 fails for an escaped backslash in front of the closing quote: the lazy scan takes
    the second backslash as the beginning of another escape. *)
Theorem C20_backslash_refuted :
  exists t l r e,
    consumes (open t at_once) (asks 3) = (l, Ok r) /\
    map (fun e => into_token (e_wrap e)) l = [Ok TStreamStart; Ok (TScalar (Owned [92%N]) DoubleQuote); Ok TStreamEnd] /\
    snd (consumes (open t lazily) (asks 3)) = Err e.
Proof.
  exists [34%N; 92%N; 92%N; 34%N]. do 3 eexists.
  split; [vm_compute; reflexivity|]. split; vm_compute; reflexivity.
Qed.
Print Assumptions C20_backslash_refuted.

(** C20 fails outside ASCII: a plain scalar in front of a colon and a NEL (U+0085) is
    cut inside this character. *)
Theorem C20_wide_break_refuted :
  exists t l r,
    consumes (open t at_once) (asks 7) = (l, Ok r) /\
    map (fun e => into_token (e_wrap e)) l =
      [Ok TStreamStart; Ok TBlockMappingStart; Ok TKey; Ok (TScalar (Borrowed [97%N]) Plain); Ok TValue; Ok TBlockEnd; Ok TStreamEnd] /\
    snd (consumes (open t lazily) (asks 7)) = Panic.
Proof.
  exists [97%N; 58%N; 194%N; 133%N]. do 2 eexists.
  split; [vm_compute; reflexivity|]. split; vm_compute; reflexivity.
Qed.
Print Assumptions C20_wide_break_refuted.
