(** The stable min-heap queue (src/queue.rs).

    The inner [BinaryHeap] of the standard library is represented by the list
    of its items in push order; what is used of it is its documented contract:
    [pop] removes an item that is greatest for [Ord] ([Reverse] makes that the
    least one).  Marks are pairwise distinct, so there is only one such item. *)
From Verif Require Export Base.

Section Queue.
  Variable T : Type.
  (** The [Ord] instance of the element type. *)
  Variable cmp : T -> T -> comparison.

  (** src/queue.rs:26-30 and 225-229, [Queue] and [QueueEntry]. *)
  Record queue := mkQueue { q_heap : list (nat * T); q_inc : nat }.

  (** src/queue.rs:113-124, [Default::default]. *)
  Definition q_new : queue := mkQueue [] 0.

  (** src/queue.rs:41-46 and 91-96, [push] with [increment]. *)
  Definition q_push (q : queue) (x : T) : queue :=
    mkQueue (q_heap q ++ [(S (q_inc q), x)]) (S (q_inc q)).

  (** src/queue.rs:261-274, [Ord for QueueEntry], as "strictly less". *)
  Definition q_lt (a b : nat * T) : bool :=
    match cmp (snd a) (snd b) with
    | Lt => true
    | Gt => false
    | Eq => Nat.ltb (fst a) (fst b)
    end.

  (** Contract of [BinaryHeap::pop]: take out the least item. *)
  Fixpoint extract (x : nat * T) (l : list (nat * T)) : (nat * T) * list (nat * T) :=
    match l with
    | [] => (x, [])
    | y :: r =>
        let (m, r') := extract y r in
        if q_lt m x then (m, x :: r') else (x, y :: r)
    end.

  (** src/queue.rs:48-56, [pop]. *)
  Definition q_pop (q : queue) : option T * queue :=
    match q_heap q with
    | [] => (None, q)
    | x :: l => let (m, r) := extract x l in (Some (snd m), mkQueue r (q_inc q))
    end.

  (** src/queue.rs:71-79, [len] and [is_empty]. *)
  Definition q_len (q : queue) : nat := List.length (q_heap q).

  (** src/queue.rs:136-159, [from_iter]: marks 1, 2, 3, ... *)
  Definition q_from (l : list T) : queue := fold_left q_push l q_new.

  (** src/queue.rs:66-69 and 204-213, [into_sorted_vec]: pop until empty. *)
  Fixpoint q_drain (fuel : nat) (q : queue) : list T :=
    match fuel with
    | O => []
    | S fuel' =>
        match q_pop q with
        | (Some x, q') => x :: q_drain fuel' q'
        | (None, _) => []
        end
    end.
  Definition q_sorted (q : queue) : list T := q_drain (q_len q) q.

  (** src/queue.rs:58-64, [sort]: the heap is rebuilt from the same entries
      (marks included), so the set of entries is unchanged.  [into_sorted_vec]
      on [Reverse] entries yields them in descending order. *)
  Fixpoint sort_entries (fuel : nat) (l acc : list (nat * T)) : list (nat * T) :=
    match fuel, l with
    | S fuel', x :: r => let (m, r') := extract x r in sort_entries fuel' r' (m :: acc)
    | _, _ => acc
    end.
  Definition q_sort (q : queue) : queue :=
    mkQueue (sort_entries (q_len q) (q_heap q) []) (q_inc q).
End Queue.
Arguments q_new {T}.
Arguments q_push {T} q x.
Arguments q_pop {T} cmp q.
Arguments q_len {T} q.
Arguments q_heap {T} q.
Arguments q_inc {T} q.
Arguments mkQueue {T} q_heap q_inc.
