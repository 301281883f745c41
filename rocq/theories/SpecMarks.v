(** The marks of events.  Nothing here refers to the parser. *)
From Verif Require Export Event.
Open Scope nat_scope.

(** The events before the first answer that is not one. *)
Fixpoint first_events {A} (l : list (pres (option A))) : list A :=
  match l with Ok (Some e) :: l => e :: first_events l | _ => [] end.

(** Numbers that never get smaller, between [a] and [b]. *)
Fixpoint rising (a : nat) (l : list nat) (b : nat) : Prop :=
  match l with [] => a <= b | n :: l => a <= n /\ rising n l b end.
(** All the marks of some events, in order. *)
Definition marks (es : list event) : list nat := flat_map (fun e => [ev_start e; ev_end e]) es.

(** The token an event is made from.  Events that stand for nothing in the text - empty
    scalars, documents without markers - and the end of a mapping of one pair go with any
    token. *)
Definition fits (d : event_data) (w : maybe_token) : Prop :=
  match d with
  | EvStreamStart => w = Tok TStreamStart
  | EvStreamEnd => w = Tok TStreamEnd
  | EvDocumentStart _ false => w = Tok TDocumentStart
  | EvDocumentEnd false => w = Tok TDocumentEnd
  | EvAlias n => w = Tok (TAlias n)
  | EvScalar _ (Eager v k) => w = Tok (TScalar v k) \/ v = Borrowed [] /\ k = Plain
  | EvScalar _ (LazyS d) => w = Lazy d
  | EvSequenceStart _ => w = Tok TBlockSequenceStart \/ w = Tok TFlowSequenceStart
  | EvMappingStart _ => w = Tok TBlockMappingStart \/ w = Tok TFlowMappingStart \/ w = Tok TKey
  | EvSequenceEnd => w = Tok TBlockEnd \/ w = Tok TFlowSequenceEnd
  | EvDocumentStart _ true | EvDocumentEnd true | EvMappingEnd => True
  end.
