(** Documents of a stream. *)
From Verif Require Export SpecGap.

Definition marks_document (e : entry) : Prop := e_marker e = MDocumentStart \/ e_marker e = MDocumentEnd.

(** The flow collections that were opened were closed. *)
Definition flows_closed (l : list entry) : Prop := count flow_open l = count flow_close l.

(** A block collection was opened. *)
Definition opens_block (l : list entry) : Prop := exists e, In e l /\ block_open (e_marker e) = true.

(** No token is ready to be taken. *)
Definition nothing_ready (r : reader) : Prop := fst (consumes r [Pull]) = [].

(** The same token, as far behind [n1] in the one text as behind [n2] in the other. *)
Definition moved (n1 n2 : nat) (e1 e2 : entry) : Prop :=
  into_token (e_wrap e2) = into_token (e_wrap e1) /\ n1 <= e_read e1 /\ e_read e1 + n2 = e_read e2 + n1.
