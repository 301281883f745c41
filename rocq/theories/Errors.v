(** The public error type and its classification (src/error.rs). *)
From Verif Require Export Parser.

(** src/error.rs:97-115, [Category]. *)
Inductive category := CatIO | CatSyntax | CatData | CatEOF.

(** src/error.rs:238-471, [ErrorCode]. *)
Inductive error_code :=
| ECUnknownDirective
| ECMissingMajor
| ECMissingMinor
| ECMissingValue
| ECInvalidVersion
| ECInvalidTagHandle
| ECInvalidTagPrefix
| ECInvalidTagSuffix
| ECInvalidAnchorName
| ECInvalidFlowScalar
| ECInvalidPlainScalar
| ECInvalidBlockScalar
| ECInvalidBlockEntry
| ECInvalidTab
| ECInvalidKey
| ECInvalidValue
| ECUnknownEscape
| ECUnknownDelimiter
| ECUnexpectedEOF
| ECIntOverflow
| ECCorruptStream
| ECDuplicateVersion
| ECDuplicateTagDirective
| ECUndefinedTag
| ECMissingDocumentStart
| ECMissingBlockEntry
| ECMissingNode
| ECMissingKey
| ECMissingFlowSequenceEntryOrEnd
| ECMissingFlowMappingEntryOrEnd
.

(** src/error.rs:217-221 and 473-485, [ErrorKind] and [SourceError]; the wrapped
    [Utf8Error] and [io::Error] values are not modelled. *)
Inductive error_kind := KCode (c : error_code) | KSourceIO | KSourceUtf8.

(** src/error.rs:124-136, [internal::Error], and the public wrapper (24-29). *)
Record error := mkError { er_kind : error_kind; er_at : N; er_line : N; er_column : N }.

(** src/error.rs:143-148, [Error::new]: no context. *)
Definition error_new (k : error_kind) : error := mkError k 0 0 0.

(** src/error.rs:200-205, [has_context]. *)
Definition has_context (e : error) : bool := negb (N.eqb (er_line e) 0).

(** src/scanner/error.rs:100-133, [From<ScanError> for ErrorCode]. *)
Definition code_of_scan (e : scan_error) : error_code :=
  match e with
  | UnknownDirective => ECUnknownDirective
  | MissingMajor => ECMissingMajor
  | MissingMinor => ECMissingMinor
  | MissingValue => ECMissingValue
  | InvalidVersion => ECInvalidVersion
  | InvalidTagHandle => ECInvalidTagHandle
  | InvalidTagPrefix => ECInvalidTagPrefix
  | InvalidTagSuffix => ECInvalidTagSuffix
  | InvalidAnchorName => ECInvalidAnchorName
  | InvalidFlowScalar => ECInvalidFlowScalar
  | InvalidPlainScalar => ECInvalidPlainScalar
  | InvalidBlockScalar => ECInvalidBlockScalar
  | InvalidBlockEntry => ECInvalidBlockEntry
  | InvalidTab => ECInvalidTab
  | InvalidKey => ECInvalidKey
  | InvalidValue => ECInvalidValue
  | UnknownEscape => ECUnknownEscape
  | UnknownDelimiter => ECUnknownDelimiter
  | UnexpectedEOF => ECUnexpectedEOF
  | IntOverflow => ECIntOverflow
  | Extend => ECUnexpectedEOF
  end.

(** src/event/error.rs:252-276, [From<ParseError> for ErrorKind]. *)
Definition kind_of_parse (e : parse_error) : error_kind :=
  match e with
  | CorruptStream => KCode ECCorruptStream
  | DuplicateVersion => KCode ECDuplicateVersion
  | DuplicateTagDirective => KCode ECDuplicateTagDirective
  | UndefinedTag => KCode ECUndefinedTag
  | MissingDocumentStart => KCode ECMissingDocumentStart
  | MissingBlockEntry => KCode ECMissingBlockEntry
  | MissingNode => KCode ECMissingNode
  | MissingKey => KCode ECMissingKey
  | MissingFlowSequenceEntryOrEnd => KCode ECMissingFlowSequenceEntryOrEnd
  | MissingFlowMappingEntryOrEnd => KCode ECMissingFlowMappingEntryOrEnd
  | ParserEOF => KCode ECUnexpectedEOF
  | ParserScan e => KCode (code_of_scan e)
  | ParserUtf8 => KSourceUtf8
  | ParserIo => KSourceIO
  end.

(** src/reader/error.rs:75-86, [From<ReaderError> for ErrorKind]. *)
Definition kind_of_reader (e : reader_error) : error_kind :=
  match e with
  | RUtf8 => KSourceUtf8
  | RIo => KSourceIO
  | RScan e => KCode (code_of_scan e)
  end.

(** src/error.rs:612-653, [From<ErrorCode> for Category]. *)
Definition category_of_code (c : error_code) : category :=
  match c with
  | ECIntOverflow | ECCorruptStream => CatData
  | ECUnexpectedEOF => CatEOF
  | ECUnknownDirective
  | ECMissingMajor
  | ECMissingMinor
  | ECMissingValue
  | ECInvalidVersion
  | ECInvalidTagHandle
  | ECInvalidTagPrefix
  | ECInvalidTagSuffix
  | ECInvalidAnchorName
  | ECInvalidFlowScalar
  | ECInvalidPlainScalar
  | ECInvalidBlockScalar
  | ECInvalidBlockEntry
  | ECInvalidTab
  | ECInvalidKey
  | ECInvalidValue
  | ECUnknownEscape
  | ECUnknownDelimiter
  | ECDuplicateVersion
  | ECDuplicateTagDirective
  | ECUndefinedTag
  | ECMissingDocumentStart
  | ECMissingBlockEntry
  | ECMissingNode
  | ECMissingKey
  | ECMissingFlowSequenceEntryOrEnd
  | ECMissingFlowMappingEntryOrEnd => CatSyntax
  end.

(** src/error.rs:570-580 and 722-732. *)
Definition category_of_kind (k : error_kind) : category :=
  match k with
  | KCode c => category_of_code c
  | KSourceIO => CatIO
  | KSourceUtf8 => CatData
  end.

(** src/error.rs:62-65 and 208-211, [Error::classify]. *)
Definition classify (e : error) : category := category_of_kind (er_kind e).

(** src/event/error.rs:278-284 (and reader/error.rs:88-94, scanner/error.rs:135-141):
    the public error. *)
Definition error_of_parse (e : parse_error) : error := error_new (kind_of_parse e).
Definition error_of_reader (e : reader_error) : error := error_new (kind_of_reader e).
Definition error_of_scan (e : scan_error) : error := error_new (KCode (code_of_scan e)).

(** [std::io::ErrorKind], the values used; [OriginalIo] stands for the wrapped error
    handed back unchanged. *)
Inductive io_kind := OriginalIo | InvalidInput | InvalidData | UnexpectedEofIo.

(** src/error.rs:551-568, [From<Error> for io::Error]. *)
Definition io_of_error (e : error) : res unit io_kind :=
  match er_kind e with
  | KSourceIO => Ok OriginalIo
  | _ =>
      match classify e with
      | CatSyntax => Ok InvalidInput
      | CatData => Ok InvalidData
      | CatEOF => Ok UnexpectedEofIo
      | CatIO => Panic
      end
  end.
