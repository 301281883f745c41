(** Specification of a stable priority queue: the pending items are a list in
    order of insertion. *)
From Coq Require Import List.
Import ListNotations.

Section Spec.
  Variable T : Type.
  Variable cmp : T -> T -> comparison.

  (** Total preorders, what Rust's [Ord] documents. *)
  Definition total_order : Prop :=
    (forall a b, cmp b a = CompOpp (cmp a b)) /\
    (forall a b c, cmp a b <> Gt -> cmp b c <> Gt -> cmp a c <> Gt).

  (** [x] is the least pending item, the earliest of its equals. *)
  Definition takes (pending : list T) (x : T) (rest : list T) : Prop :=
    exists before after, pending = before ++ x :: after /\ rest = before ++ after /\
      (forall y, In y before -> cmp x y = Lt) /\
      (forall y, In y after -> cmp x y <> Gt).

  Inductive op := Push (x : T) | Pop | Sort.

  (** The answers (one for each [Pop]) of a history, from a list of pending items to
      the final list. *)
  Inductive answers : list T -> list op -> list (option T) -> list T -> Prop :=
  | answers_nil l : answers l [] [] l
  | answers_push l x ops out l' :
      answers (l ++ [x]) ops out l' -> answers l (Push x :: ops) out l'
  | answers_sort l ops out l' : answers l ops out l' -> answers l (Sort :: ops) out l'
  | answers_pop l x rest ops out l' :
      takes l x rest -> answers rest ops out l' -> answers l (Pop :: ops) (Some x :: out) l'
  | answers_pop_none ops out l' :
      answers [] ops out l' -> answers [] (Pop :: ops) (None :: out) l'.

  (** [l'] is [l] sorted, equal items keeping their order. *)
  Inductive stable_sort : list T -> list T -> Prop :=
  | stable_nil : stable_sort [] []
  | stable_cons l x rest l' : takes l x rest -> stable_sort rest l' -> stable_sort l (x :: l').
End Spec.
Arguments Push {T} x.
Arguments Pop {T}.
Arguments Sort {T}.
