(** Tokens, deferred scalars and queue entries (src/token.rs,
    src/scanner/entry.rs). *)
From Verif Require Export Macros.

(** src/event/types.rs:581-610, [ScalarStyle]. *)
Inductive scalar_style := Plain | SingleQuote | DoubleQuote | Literal | Folded.

(** src/token.rs:11-56, [Token].  [StreamStart] carries an encoding that is
    always UTF8 (mod.rs:235); it is dropped. *)
Inductive token :=
| TStreamStart
| TStreamEnd
| TVersionDirective (major minor : N)
| TTagDirective (handle prefix : cow)
| TDocumentStart
| TDocumentEnd
| TBlockSequenceStart
| TBlockMappingStart
| TBlockEnd
| TFlowSequenceStart
| TFlowSequenceEnd
| TFlowMappingStart
| TFlowMappingEnd
| TBlockEntry
| TFlowEntry
| TKey
| TValue
| TAlias (name : cow)
| TAnchor (name : cow)
| TTag (handle suffix : cow)
| TScalar (text : cow) (style : scalar_style).

(** [Cow::into_owned]. *)
Definition own (c : cow) : cow := Owned (cow_str c).

(** src/token.rs:60-95, [Token::into_owned], including its mapping of the two
    block collection starts to flow collection starts. *)
Definition token_into_owned (t : token) : token :=
  match t with
  | TTagDirective h p => TTagDirective (own h) (own p)
  | TBlockSequenceStart => TFlowSequenceStart
  | TBlockMappingStart => TFlowMappingStart
  | TAlias a => TAlias (own a)
  | TAnchor a => TAnchor (own a)
  | TTag h s => TTag (own h) (own s)
  | TScalar c k => TScalar (own c) k
  | t => t
  end.

(** src/token.rs:98-142, [Marker]: the constructor of a token without its
    contents. *)
Inductive marker :=
| MStreamStart | MStreamEnd | MVersionDirective | MTagDirective
| MDocumentStart | MDocumentEnd
| MBlockSequenceStart | MBlockMappingStart | MBlockEnd
| MFlowSequenceStart | MFlowSequenceEnd | MFlowMappingStart | MFlowMappingEnd
| MBlockEntry | MFlowEntry | MKey | MValue | MAlias | MAnchor | MTag | MScalar.

(** src/token.rs:144-177, [Marker::from_token]. *)
Definition token_marker (t : token) : marker :=
  match t with
  | TStreamStart => MStreamStart
  | TStreamEnd => MStreamEnd
  | TVersionDirective _ _ => MVersionDirective
  | TTagDirective _ _ => MTagDirective
  | TDocumentStart => MDocumentStart
  | TDocumentEnd => MDocumentEnd
  | TBlockSequenceStart => MBlockSequenceStart
  | TBlockMappingStart => MBlockMappingStart
  | TBlockEnd => MBlockEnd
  | TFlowSequenceStart => MFlowSequenceStart
  | TFlowSequenceEnd => MFlowSequenceEnd
  | TFlowMappingStart => MFlowMappingStart
  | TFlowMappingEnd => MFlowMappingEnd
  | TBlockEntry => MBlockEntry
  | TFlowEntry => MFlowEntry
  | TKey => MKey
  | TValue => MValue
  | TAlias _ => MAlias
  | TAnchor _ => MAnchor
  | TTag _ _ => MTag
  | TScalar _ _ => MScalar
  end.

(** [derive(PartialEq)] on [Marker]. *)
Definition marker_eqb (a b : marker) : bool :=
  match a, b with
  | MStreamStart, MStreamStart | MStreamEnd, MStreamEnd
  | MVersionDirective, MVersionDirective | MTagDirective, MTagDirective
  | MDocumentStart, MDocumentStart | MDocumentEnd, MDocumentEnd
  | MBlockSequenceStart, MBlockSequenceStart | MBlockMappingStart, MBlockMappingStart
  | MBlockEnd, MBlockEnd
  | MFlowSequenceStart, MFlowSequenceStart | MFlowSequenceEnd, MFlowSequenceEnd
  | MFlowMappingStart, MFlowMappingStart | MFlowMappingEnd, MFlowMappingEnd
  | MBlockEntry, MBlockEntry | MFlowEntry, MFlowEntry
  | MKey, MKey | MValue, MValue | MAlias, MAlias | MAnchor, MAnchor
  | MTag, MTag | MScalar, MScalar => true
  | _, _ => false
  end.

(** src/scanner/scalar/flow.rs:339-345, plain.rs:421-428, block.rs:736-743, the
    three [Deferred] records, and src/scanner/entry.rs:177-183, [LazyImpl]. *)
Inductive deferred :=
| DFlow (opts : flags) (text : str) (st : stats) (single : bool)
| DPlain (opts : flags) (text : str) (st : stats) (indent : nat) (block : bool)
| DBlock (opts : flags) (text : str) (st : stats) (indent : nat) (fold : bool).

(** src/scanner/entry.rs:88-93, [MaybeToken]. *)
Inductive maybe_token := Tok (t : token) | Lazy (d : deferred).

(** src/scanner/entry.rs:97-104 and 187-190, [marker]. *)
Definition maybe_marker (m : maybe_token) : marker :=
  match m with
  | Tok t => token_marker t
  | Lazy _ => MScalar
  end.

(** src/scanner/entry.rs:23-27, [TokenEntry]. *)
Record entry := mkEntry { e_wrap : maybe_token; e_read : nat }.

Definition e_marker (e : entry) : marker := maybe_marker (e_wrap e).
