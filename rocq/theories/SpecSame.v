(** Events that say the same. *)
From Verif Require Export EventEq.
Open Scope nat_scope.

(** The text of a slice, wherever it is kept. *)
Definition plain_tag (g : option (cow * cow)) : option (str * str) :=
  option_map (fun g => (cow_str (fst g), cow_str (snd g))) g.
Definition same_node (n m : node) : Prop :=
  option_map cow_str (n_anchor n) = option_map cow_str (n_anchor m) /\
  plain_tag (n_tag n) = plain_tag (n_tag m) /\ n_kind n = n_kind m.

(** The same version, and every handle has the same prefix, if any. *)
Definition same_directives (d e : directives) : Prop :=
  d_version d = d_version e /\
  forall h, option_map cow_str (tag_get (d_tags d) h) = option_map cow_str (tag_get (d_tags e) h).

Inductive same_data : event_data -> event_data -> Prop :=
| same_start : same_data EvStreamStart EvStreamStart
| same_end : same_data EvStreamEnd EvStreamEnd
| same_document d e i : same_directives d e -> same_data (EvDocumentStart d i) (EvDocumentStart e i)
| same_document_end i : same_data (EvDocumentEnd i) (EvDocumentEnd i)
| same_alias n m : cow_str n = cow_str m -> same_data (EvAlias n) (EvAlias m)
| same_scalar n m c d k : same_node n m -> cow_str c = cow_str d -> same_data (EvScalar n (Eager c k)) (EvScalar m (Eager d k))
| same_mapping n m : same_node n m -> same_data (EvMappingStart n) (EvMappingStart m)
| same_mapping_end : same_data EvMappingEnd EvMappingEnd
| same_sequence n m : same_node n m -> same_data (EvSequenceStart n) (EvSequenceStart m)
| same_sequence_end : same_data EvSequenceEnd EvSequenceEnd.

(** The same data at the same place.  Deferred scalars are not said to be the same. *)
Definition same_event (a b : event) : Prop :=
  ev_start a = ev_start b /\ ev_end a = ev_end b /\ same_data (ev_data a) (ev_data b).

Definition deferred_event (e : event) : Prop := exists n d, ev_data e = EvScalar n (LazyS d).
