# Formal model of yary in Rocq (Coq 8.16.1)

The model lives in `rocq/theories`. Every definition cites the file and lines of
`/repo` it models. Properties are listed in `properties.jsonl`; `MANIFEST.json`
maps each one to its theorems.

## Approach

* **Text** is a list of bytes (`N`), positions are `nat`. A Rust `&str` slice is
  the remaining byte list; `split_at`, indexing and slicing are explicit
  operations that return `Panic` where Rust panics (out of range, not a UTF-8
  character boundary, reversed range). `String::from_utf8(..).unwrap()` returns
  `Panic` when the bytes are not UTF-8.
* **Results** are data: `Ok`, `Err e`, `Panic`, `Fuel`. Loops run through one
  combinator with explicit fuel; theorems show `Fuel` is never returned.
* **The scanner** is a state-passing function over (remaining text, scanner
  record, token queue), so partial effects before an error are modelled.
* **The parser** is generic in its token source (a peek and a pop function), so
  statements about it hold for every reader and every token order.

## Plan per property

| id | what is modelled | how it is proved |
|----|------------------|------------------|
| C01 | parser state machine, all handlers, state stack | pushdown invariant relating state stack to an independent grammar |
| C02 | `done` flag and stream end | induction over calls |
| C03 | NodeKind of each event | kinds are part of the independent grammar of C01 |
| C04 | `validate_tag`, directives of the current document | invariant on the last DocumentStart event |
| C05 | `scan_document_directives` | induction over directive tokens against a specification of the directive set |
| C06 | same | same, error branch |
| C07 | same | expected refutation (default handles already present) |
| C08 | `node` tag handling | case analysis over the node function |
| C09 | every loop of the scanner | fuel lower bound + progress measure |
| C10 | iterator after an error | expected refutation (same error for ever) |
| C11 | queue with marks | refinement to a stable sorted list |
| C12, C13 | queue + scanner + reader | invariant: pending marks are at most the scanner position when no key is pending |
| C14 | scanner state Start/Stream/Done | invariant over steps |
| C15, C16 | context, indent stack, flow level | ghost counters over the pushed tokens |
| C17 | scanning with `O_EXTENDABLE`, resume offset | prefix determinism of every scanning function, then simulation |
| C18 | `refresh_buffer` | invariant over refills |
| C19 | panic as explicit result | refutations by witness; positive theorem for a syntactic class of inputs (`SpecHarmless`; no escape of such a text decodes to invalid UTF-8, and lazily scanned or incomplete block scalars do not panic, `BlockCalm`); the parser takes only tokens it has seen (`EventCalm`) |
| C20 | lazy scanners and deferred evaluation | simulation between the eager and the lazy reader, method by method; scanning the slice of a deferred scalar gives what scanning in place gives; refutations otherwise |
| C21 | `ScalarLike` | case analysis |
| C22, C23, C25, C26, C27, C29 | scalar scanners | round-trip proofs against independent encoders / folding specification |
| C24 | UTF-8 encoder | arithmetic against an independent definition of UTF-8 |
| C28 | slice bookkeeping in the scanners | loop invariants |
| C30 | stats | loop invariants, specification counts line breaks |
| C31, C32 | directive and anchor scanners | induction over digits / names |
| C33 | key saving, expiry, `fetch_value` | invariant + case analysis |
| C34 | `Context.started`, document markers, whole reader | refutation; positive part: invariant of the state behind a marker (`Parts`), simulation of two readers on the same rest of text (`PartsSim`) |
| C35 | error enums and conversions | case analysis |
| C36 | UTF-8 validation | decision procedure against independent definition |
| C37 | peek reader | case analysis / induction |
| C38 | document markers | case analysis of parser states |
| C39 | verbatim tags | expected refutation |
| C40 | `eat_whitespace`, whole reader | shift invariance (`Shift`), simulation of two readers (`GapSim`, `GapFacts`) |
| C41 | parser over a list of tokens, token grammar with translation | completeness by induction on derivations, soundness by induction on calls |
| C42 | same | simulation invariant over calls |
| C43 | readers over sources, error paths of `drive_owned` | well-founded descent over the bytes the source still holds |
| C44 | whole library: scanner, reader, parser | induction over derivations of a grammar of streams (`SpecYaml`): tokens of each part (`YamlRound`, `YamlWord`, `YamlAsk`, `YamlFlow`, `YamlBlock`, `YamlMark`, `YamlDoc`), then C41 and C45; refutations by witness |
| C45 | parser over any token source | simulation between the parser over the reader and over the list of its tokens (`TapeFacts`, `TapeStream`) |
| C46 | scanner: indentation, saved keys, white space, all scalars | the history of the scanner is laid out in the text (`SpecLayout`, `SpecPlaced`): invariant `linv` (`Layout`) kept by every round (`History`), the queue sorts it stably (`LayoutStream`); refutations by witness |
| C47 | everything under the event iterator | RFC 8259 as a grammar with values (`SpecJson`); a JSON text is a stream of the grammar of C44 (`JsonYaml`), so its events are those of C44 (`JsonFacts`), also with deferred scalars (`JsonLazy`, `SpecShown`); refutations by witness |
| C48 | event parser over the tokens of a text, scanner | Hoare triples over the tape of tokens with a rising lower bound (`EventMarks`), carried to texts by C45 and C12, and to the text of scalars by C46 (`MarkFacts`) |
| C49 | as C48 | refuted by witness |
| C50 | `PartialEq` of the event types (`EventEq`) | equality decides an independent relation (`SpecSame`) on events with distinct handles; the parser over any source of tokens delivers such (`EqFacts`); refutation by witness |
| C51 | several iterators over one reader (`Shared`), calls in any order | borrowed text is left alone by every method of the parser (`SharedFacts`), induction on the order of calls; refutation by witness |
| C52 | the answers of the iterator behind an `UndefinedTag` error; `repaired` puts the lost events back (`SpecRepair`) | a call that reports an undefined tag leaves the same parser as one under directives that define it (`TagCheck`), so the grammar invariant of C01 carries over; refutation by witness for the documented loop that skips errors |
| C53 | the answers of the iterator from any point on, after errors of any kind | the grammar invariant of C01 also holds after errors; whatever a reachable stack of states still has to deliver can be completed to the left to a sentence (`StretchFacts`) |
| C54 | a source that is watched (`SpecLogged`): it records the errors it answers | every method over the watched source does what it does over the source and returns at once with a recorded error (`LoggedFacts`), walk over the methods of the parser |
| C55 | the parser over tokens after which the source fails, and over the same tokens with more to follow (`tape_source`) | every method answers the same over both tapes or fails with the error of the first (`SoonFacts`), walk over the methods of the parser; loops bounded by the length of the tape only gain fuel; `SoonText` carries it to texts |
| C56 | the parser over a tape of tokens, with what is left of it after the calls | every method takes a prefix of the tape and answers the same whatever follows, if only the next token is the same (`NearFacts`); composes over binds, loops need as much fuel as they take tokens |

## How the files fit together

| part | files |
|------|-------|
| model | `Base` `Utf8` `Macros` `Token` `Queue` `Context` `Lex` `Tag` `Flow` `Plain` `Block` `Scanner` `Reader` `Event` `Parser` `Errors` |
| model against the project's own unit tests | `Conformance` (the inputs and expected tokens / events of `/repo/src/**/tests`) |
| specifications, readable without the model's helpers | `Spec*.v` |
| property theorems, nothing else | `Prop*.v` (each with `Print Assumptions` and a non-vacuity `Example`) |
| proofs | the other files |

The scanner theorems are layered. `Contract` states once what every leaf function
(text in, text and statistics out) guarantees: the text read is a prefix of valid UTF-8,
the statistics count it, the loops end. `ScanSpec` states, as an inductive relation,
what one round of the scanner may do; `ScanWp`/`ScanFacts` prove that every round of the
program is one of those. `History`, `Runs` and `StreamFacts` then reason about
histories of that relation only, so the stream properties do not depend on how the
program is written. The content properties (`ContentFacts`, `PlainStream`,
`BlockStream`, `NameFacts`) attach to each delivered token the piece of the source it
was read from. The `Cut*` files prove that scanning a prefix of a text either asks for
more text or does exactly what it does with the rest attached; `Chunks` lifts this to
readers over byte sources and `Buffers` proves what those keep. `Defer*` and `Narrow*`
relate deferred scalars to eager ones: the lazy scan ends where the eager one ends
(`Defer`, `DeferBlock`), scanning the slice again gives the same text (`Narrow*`), and
`DeferStream` carries this through the reader, `DeferEvents` through the event parser and
`DeferYaml` combines it with C44. `EventSim` is the simulation behind it: the event parser
maps token sequences that correspond, for any given correspondence of positions and
scalars, to events that correspond.
`SpecGap` defines runs of white space and comments; `Shift` shows that the scanners do not
depend on the position, `GapEat` that `eat_whitespace` skips such a run, `GapSim` and
`GapFacts` relate two readers whose texts differ only in such a run, and `GapEvents` carries
this through the event parser.
`SpecYaml` is a grammar of streams; `YamlRound` describes one round of the scanner at
a given place, `YamlWord` the anchors, aliases, tags and block scalars at a place, `YamlAsk` the
indicators `?` and `:` of explicit keys,
`YamlFlow` and `YamlBlock` the rounds of flow and block collections, `YamlMark` those of
document markers and directives,
`YamlDoc` the tokens and `YamlEvents` the events of a stream, `YamlExample` derives one.
`Parts` and `PartsSim` compare two readers behind document markers (C34).
`SpecTape`, `TapeFacts` and `TapeStream` replace the reader under the parser by the list
of its tokens; `EventFuel` shows that the parser always answers, `EventCount` that it
gives finitely many events, `EventCalm` that it does not panic; `OwnedEvents` carries the
results over to byte sources, `LazySource` those with deferred scalars,
`SourceLaws` termination, the absence of panics and the order of marks.
`SpecLayout` says how tokens are laid out in a text by columns, `SpecPlaced` what stands
where a scalar, name or marker is found; `Layout` is the invariant behind it, kept in the
histories of `History`, and `LayoutStream` carries it through the queue.
The last group works on the event iterator alone, over lists of tokens: `SpecRepair` and
`RepairFacts` compare two streams that differ in one undefined tag handle (C52),
`StretchFacts` cuts the events at the errors (C53), `SpecLogged` and `LoggedFacts` record
the errors the source has given (C54), `SoonFacts` compares two sources with a common
beginning and `SoonText` two texts (C55), and `SpecNear` and `NearFacts` count the tokens taken (C56).

## Trusted base

* Coq 8.16.1's kernel (and `vm_compute`, only for concrete witnesses and examples).
* `Print Assumptions` reports "Closed under the global context" for every theorem in
  `Prop*.v`: no axioms, neither ours nor the standard library's. (`vcheck`'s
  `coqchk -o` pass lists constants of `ssreflect`'s `Under_rel` module, which are part
  of Coq's standard distribution and are loaded but not used.)
* That the model is the program. It was transcribed by hand from the Rust text,
  definition by definition, with the lines cited; `Conformance.v` replays the project's
  own unit tests through it.

Modelled: all of `src/scanner` (all scalar styles, eager and lazy; tags; directives;
anchors; keys; indentation; statistics), `src/queue.rs`, `src/token.rs`,
`src/reader` (borrowed, owned and peeking readers), `src/event` (state machine,
macros, directive and tag resolution, iterators), the error conversions and codes of
`src/error.rs`, `src/scanner/error.rs`, `src/reader/error.rs`, `src/event/error.rs`.

Not modelled, or modelled by contract:

* `BinaryHeap` of the standard library: modelled by its contract (a pop returns a least
  element; the order is the code's, with the tie break on the push counter).
* `HashMap` of tag directives: an association list in insertion order.
* `atoi` 0.4: assumed to return `None` on overflow (its documented checked behaviour).
* `std::io::Read`: a list of what successive calls return (bytes, an empty read, an
  error); errors are opaque. A read of zero bytes is the end of a refill, as in
  `Read::take(..).read_to_end`.
* `std::str` validation: our decision procedure, proved equal to the RFC 3629 table
  (C36).
* Counters are `nat`. They can only wrap after 2^64 (or 2^32) bytes, which no input
  reaches; the one checked counter (flow depth) is modelled with its check.
* `debug_assert!`s of the parser are modelled with a flag (debug or release build);
  those of the scanner are comments, not panics (release builds); the ones that can fail
  are listed below.
* Memory: reference counts, `Cow` clones and the unsafe lifetime extension in
  `reader/owned.rs` are not modelled as memory. What makes the latter sound - borrowed
  text lies inside a retained buffer that is never changed - is C18_buffers.
* `Debug`/`Display` texts, the `test_*` features, documentation.

## What the proofs found

Each of these is a theorem about the model named `..._refuted`, or a note of a property.

1. `advance!(buffer, 1)` is used on content characters, so multi-byte characters in
   plain, quoted and block scalars and in comments panic in eager mode
   (C19, C22, C27, C29 refuted).
2. Block scalars whose text can be borrowed: with clip chomping the length of the line
   break is looked up one byte too far, so `|\n  x\n` at the end of the text loses its
   line feed, CRLF leaves a carriage return, and a multi-byte character panics; keep
   chomping keeps one byte (C29).
3. An empty block scalar panics (`a: |`) (C29_empty_refuted).
4. An explicit indentation header is never applied to the scalar; with enough
   indentation the slice panics (C29_explicit_refuted).
5. The header scanner looks at the second byte even across a line break, so `|\n1` and
   `- |\n- b` are InvalidBlockScalar (C29_sibling_refuted).
6. `\uD800` and other escapes that are not characters panic; `\U04010000` is accepted
   as U+10000; percent escapes that are not UTF-8 panic (C24, C19).
7. Verbatim tags: the closing `>` is looked for one byte too far, so `!<a> b` is
   rejected, and positions after an accepted one are wrong (C39, C30).
8. `%TAG ! ..` and `%TAG !! ..` are always duplicates (C07).
9. `Context.started` is never reset: no block mapping is opened at the first column of
   a later document (C34).
10. The lazy flow scanner does not treat `\\` as a pair, so `"\\"` swallows what follows
    (C20_backslash_refuted).
11. Lazy block scalars of an owned reader keep the extendable flag; evaluating them
    fails (C17_lazy_refuted; nothing else differs, C17_lazy_partial).
12. An owned reader reports invalid UTF-8 when a character lies across a block end
    (C17_straddle_refuted).
13. After a scan error the event iterator yields errors for ever (C10).
14. An alias is accepted as the root of a document (C01_documented_root_refuted).
15. `[a: 'b' 'c']` fails a `debug_assert!`.
16. `{}: c` and `[a]: b` are InvalidValue.
17. `a:\n- b\n-c: d` is MissingBlockEntry (C44_dash_key_refuted); `a\n...\n...\n` is MissingNode.
18. At the end of the text inside a flow collection the open block collections around it
    are not closed (C15's premise is that no flow collection is left open).
19. `Token::into_owned` turns block starts into flow starts.
20. Anchors and aliases at the end of the text are UnexpectedEOF; followed by a tab, a
    carriage return or a colon they are rejected.
21. `,` `[` `]` and `#` are not accepted in tags and prefixes.
22. `evaluate_by_ref` leaves the empty scalar behind on failure (C21).
23. A block scalar header at the end of the text counts a line break that is not there
    (visible in lazy mode) (C30).
24. A plain scalar followed by a line break is delivered owned even if it is contiguous.
25. Underflow of the flow depth is reported as an integer overflow.
26. Between `%YAML` and the version any white space, also none and also line breaks.
27. Root level plain scalars need continuation lines indented by at least one space.
28. In block scalars a blank line with exactly the indentation counts as content; folded
    scalars fold more-indented lines; `|#x` is taken as a comment.
29. When a source fails in the middle of a refill the bytes already read are lost
    (C18_failure_refuted).
30. A deferred block scalar loses its final line break when it is evaluated
    (C20_block_refuted).
31. A lazy plain scalar in front of `:` and a multi-byte line break panics
    (C20_wide_break_refuted).
32. In a block sequence in the column of the mapping it is a value of, an entry that
    is a flow collection over several lines is MissingNode and an entry that begins on
    the line after its dash is MissingKey: the sequence is closed at the end of any line
    (C44_spread_entry_refuted, C44_entry_below_refuted).
33. In flow collections plain scalars that begin with `?` or `:` are split
    (C44_indicator_in_flow_refuted).
34. `: b` is MissingKey and `[a]: b` is InvalidValue, though `? \n: b` and `? [a]\n: b` are read
    (C44_empty_key_refuted, C44_flow_key_refuted); `{?\n a : b}` is MissingNode
    (C44_question_below_refuted).
35. Tokens carry the position where they end, so the marks of a scalar event enclose
    nothing (C49).
36. A surrogate pair escape, as JSON has it, panics; a colon below its quoted name is an
    error (C47).
37. An event with a deferred scalar is not equal to itself, nor to its clone (C50).
38. Several iterators can be made from one byte source. They share its buffer but not the
    position in it, so they skip text of each other and end as if nothing were missing;
    the comments (src/error.rs, `CorruptStream`) expect an error (C51).
39. The documented loop over `events.iter().filter_map(Result::ok)` (src/event/mod.rs:255)
    sees ends without starts if a collection has an undefined tag: for `k: !x!a [b]`
    the `SequenceEnd` is delivered, the `SequenceStart` is not (C52).
