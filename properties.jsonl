{"id": "C01", "title": "Event streams follow the documented grammar", "statement": "Iterating an event stream yields, up to its first error, a prefix of a sentence of the documented productions (stream := StreamStart document+ StreamEnd, document := DocumentStart node? DocumentEnd, sequence := SequenceStart node* SequenceEnd, mapping := MappingStart (node node)* MappingEnd); if StreamEnd is delivered, the events up to it are a complete sentence.", "quantifier": "every token source (every reader, every input, even adversarial token orders), every number of next() calls", "why_tests_cant": "The grammar has unbounded nesting and length; tests only visit a few shapes.", "anchors": ["src/event/mod.rs (module docs)", "src/event/parser/mod.rs Parser::next_event, node, document_*, block_*, flow_*"]}
{"id": "C02", "title": "Event iterators are fused", "statement": "StreamEnd is delivered at most once, is the last event, and every later call to next() returns None; a source that is exhausted never makes the iterator invent events.", "quantifier": "every token source and every number of further next() calls", "why_tests_cant": "Needs all continuations after the end of the stream.", "anchors": ["src/event/parser/mod.rs Parser::next_event", "src/event/mod.rs EventIter::next"]}
{"id": "C03", "title": "Node placement hints are correct", "statement": "Every Scalar/MappingStart/SequenceStart event carries the NodeKind matching its structural position: Root exactly for the node of a document, Entry for children of sequences, Key and Value strictly alternating for children of mappings.", "quantifier": "every token source and every event of its stream", "why_tests_cant": "Position depends on arbitrarily deep nesting and on implied (empty) nodes.", "anchors": ["src/event/types.rs NodeKind", "src/event/parser/mod.rs node, empty_scalar"]}
{"id": "C04", "title": "Delivered tags always resolve", "statement": "Every tag carried by a delivered node event has a handle defined by the directives of the DocumentStart event of its own document; a node with any other handle yields an UndefinedTag error, not an event.", "quantifier": "every token source, document and node", "why_tests_cant": "Ranges over all directive sets and tag positions.", "anchors": ["src/event/parser/mod.rs node, validate_tag", "src/event/types.rs Directives, DEFAULT_TAGS"]}
{"id": "C05", "title": "Directives are scoped to their document", "statement": "The directives of a DocumentStart event are exactly the %YAML/%TAG directives that precede that document plus the two default tags and the default version 1.2, in no case those of an earlier document.", "quantifier": "every sequence of directive tokens and every document position", "why_tests_cant": "Unbounded number of directives and documents.", "anchors": ["src/event/parser/mod.rs scan_document_directives, document_start", "src/event/types.rs Directives::default"]}
{"id": "C06", "title": "Repeated directives are rejected", "statement": "A document whose directives contain two %YAML directives, or two %TAG directives for the same handle, is reported as DuplicateVersion / DuplicateTagDirective; otherwise the directives are accepted.", "quantifier": "every sequence of directive tokens", "why_tests_cant": "Unbounded number and interleaving of directives.", "anchors": ["src/event/parser/mod.rs scan_document_directives"]}
{"id": "C07", "title": "Default tag handles can be redefined", "statement": "Documents may expressly override the default tag handles '!' and '!!' with a %TAG directive, as the documentation of DEFAULT_TAGS promises.", "quantifier": "every prefix for the handles ! and !!", "why_tests_cant": "No unit test drives a default-handle %TAG directive through the parser.", "anchors": ["src/event/types.rs DEFAULT_TAGS docs", "src/event/parser/mod.rs scan_document_directives"]}
{"id": "C08", "title": "The non-specific tag is dropped on scalars only", "statement": "A scalar tagged with the non-resolving tag '!' is delivered without a tag; all other tags, and tags on collections, are delivered unchanged.", "quantifier": "every token source and node", "why_tests_cant": "All tag/handle/suffix combinations in all positions.", "anchors": ["src/event/parser/mod.rs node"]}
{"id": "C09", "title": "Scanning and iteration terminate", "statement": "For every input each request for tokens returns, every successful scanning step consumes input or ends the stream, and the total number of tokens is bounded by a linear function of the input length.", "quantifier": "every input string, every option set, every scanner state reachable from the start", "why_tests_cant": "Termination for all inputs is not testable.", "anchors": ["src/scanner/mod.rs Scanner::scan_tokens, scan_next_token", "src/scanner/scalar/*"]}
{"id": "C10", "title": "Iteration over a malformed stream ends", "statement": "The documented consumption pattern events.into_iter().filter_map(Result::ok) terminates on every input, i.e. after the last deliverable event the iterator eventually returns None.", "quantifier": "every input string", "why_tests_cant": "A test of a malformed input that does not end would simply hang; none exists.", "anchors": ["src/event/mod.rs from_reader docs", "src/event/parser/mod.rs next_event"]}
{"id": "C11", "title": "Token queue is a stable priority queue", "statement": "After any history of pushes, pops and sorts the queue returns the pending entry with the smallest position, ties broken by insertion order; nothing is lost, duplicated or invented.", "quantifier": "every history of operations, every ordering key type", "why_tests_cant": "All interleavings of operations and all tie patterns.", "anchors": ["src/queue.rs Queue"]}
{"id": "C12", "title": "Tokens are delivered in stream order", "statement": "Tokens leave the token queue in non-decreasing order of stream position, and no position exceeds the input length.", "quantifier": "every input string, every interleaving of scanning and popping", "why_tests_cant": "Back-inserted Key and BlockMappingStart tokens interact with every other token.", "anchors": ["src/scanner/mod.rs", "src/queue.rs", "src/reader/mod.rs"]}
{"id": "C13", "title": "Token order does not depend on the consumer's schedule", "statement": "Popping tokens as early as possible, peeking, or draining only at the end all observe the same token sequence.", "quantifier": "every input string and every schedule of fill/peek/pop operations", "why_tests_cant": "All interleavings.", "anchors": ["src/reader/mod.rs PeekReader", "src/scanner/mod.rs scan_tokens", "src/queue.rs"]}
{"id": "C14", "title": "Token streams are framed", "statement": "The first token is StreamStart, it occurs once; StreamEnd occurs at most once, is the last token, and after it scanning adds nothing.", "quantifier": "every input string and every number of scan requests", "why_tests_cant": "Requires all inputs.", "anchors": ["src/scanner/mod.rs fetch_stream_start, fetch_stream_end, scan_tokens"]}
{"id": "C15", "title": "Block collections are closed", "statement": "In every token stream each BlockEnd closes an earlier BlockSequenceStart/BlockMappingStart, and when StreamEnd is produced outside flow context every block collection has been closed.", "quantifier": "every input string", "why_tests_cant": "Unbounded indentation histories.", "anchors": ["src/scanner/mod.rs roll_indent, unroll_indent", "src/scanner/context.rs"]}
{"id": "C16", "title": "Flow nesting cannot underflow", "statement": "Closing a flow collection that was never opened is reported as an error, and the flow depth always equals the number of opened minus closed flow collections.", "quantifier": "every input string", "why_tests_cant": "Unbounded nesting histories.", "anchors": ["src/scanner/context.rs flow_increment, flow_decrement", "src/scanner/mod.rs fetch_flow_collection_*"]}
{"id": "C17", "title": "Chunking of the input is unobservable", "statement": "Reading a stream through OwnedReader yields exactly the tokens and errors BorrowReader yields for the whole input, however the underlying source splits it into reads.", "quantifier": "every input string and every division into chunks", "why_tests_cant": "The number of chunkings is exponential and each resume point matters.", "anchors": ["src/reader/owned.rs", "src/reader/borrow.rs", "src/scanner/mod.rs scan_tokens", "src/scanner/macros.rs cache!"]}
{"id": "C18", "title": "OwnedReader neither loses nor repeats bytes", "statement": "At every moment the unread part of the current buffer followed by the unread part of the source is exactly the unread part of the input; buffers backing delivered tokens are never dropped.", "quantifier": "every source, every chunk size, every resume offset", "why_tests_cant": "All histories of refills.", "anchors": ["src/reader/owned.rs refresh_buffer, read_next_chunk"]}
{"id": "C19", "title": "Untrusted input never panics", "statement": "Scanning a valid UTF-8 string returns tokens or an error and never panics.", "quantifier": "every input string", "why_tests_cant": "Only a proof covers every input.", "anchors": ["src/scanner/macros.rs advance!", "src/scanner/scalar/*", "src/scanner/tag.rs"]}
{"id": "C20", "title": "Lazy and eager scanning agree", "statement": "With O_LAZY, evaluating a lazily scanned scalar gives the same text and style as eager scanning, and the rest of the stream is unaffected.", "quantifier": "every input string", "why_tests_cant": "All scalar contents.", "anchors": ["src/scanner/scalar/flow.rs", "src/scanner/scalar/plain.rs", "src/scanner/scalar/block.rs", "src/scanner/flag.rs"]}
{"id": "C21", "title": "Evaluating lazy scalars is idempotent", "statement": "evaluate and evaluate_by_ref agree, evaluating twice changes nothing, and evaluation of an already eager scalar is the identity.", "quantifier": "every scalar payload", "why_tests_cant": "All payloads and all call sequences.", "anchors": ["src/event/types.rs ScalarLike"]}
{"id": "C22", "title": "Single quoted scalars round-trip", "statement": "Writing any text without white space or line breaks in single quotes with each quote doubled and scanning it yields the text, consuming exactly the quoted form.", "quantifier": "every text", "why_tests_cant": "All texts.", "anchors": ["src/scanner/scalar/flow.rs"]}
{"id": "C23", "title": "Double quoted escapes decode to the escaped character", "statement": "Each escape of the documented table, \\xHH, \\uHHHH and \\UHHHHHHHH in a double quoted scalar is replaced by the UTF-8 encoding of the denoted character; anything else is rejected.", "quantifier": "every escape, every sequence of escapes", "why_tests_cant": "Millions of code points and all sequences.", "anchors": ["src/scanner/scalar/escape.rs flow_unescape", "src/scanner/scalar/flow.rs"]}
{"id": "C24", "title": "Unicode escapes produce valid UTF-8", "statement": "The bytes written for an escaped code point are the standard UTF-8 encoding of it, and an escape that does not denote a Unicode scalar value is rejected with an error.", "quantifier": "every 32 bit code point", "why_tests_cant": "2^32 values.", "anchors": ["src/scanner/scalar/escape.rs write_unicode_point", "src/scanner/scalar/flow.rs"]}
{"id": "C25", "title": "Percent escapes in tags decode exactly", "statement": "A percent-encoded tag or prefix decodes to the bytes it encodes; percent-encoding any text and scanning it yields the text.", "quantifier": "every text", "why_tests_cant": "All octet sequences.", "anchors": ["src/scanner/scalar/escape.rs tag_uri_unescape", "src/scanner/tag.rs scan_tag_uri"]}
{"id": "C26", "title": "Quoted scalars fold lines as specified", "statement": "In quoted scalars a single line break between two pieces of text becomes one space, n+1 consecutive breaks become n newlines, and blanks around the breaks are dropped.", "quantifier": "every sequence of words and break runs", "why_tests_cant": "All layouts.", "anchors": ["src/scanner/scalar/flow.rs"]}
{"id": "C27", "title": "Plain scalars are trimmed and folded", "statement": "A plain scalar's text has no trailing blanks, the scalar stops before ': ', ' #', document markers and (in flow context) flow indicators, and its lines are folded like those of quoted scalars.", "quantifier": "every input string and context", "why_tests_cant": "All layouts.", "anchors": ["src/scanner/scalar/plain.rs"]}
{"id": "C28", "title": "Borrowed text is the input text", "statement": "Whenever a scalar is delivered without copying, its text is a contiguous slice of the input located between the scalar's delimiters.", "quantifier": "every input string", "why_tests_cant": "All inputs.", "anchors": ["src/scanner/scalar/flow.rs", "src/scanner/scalar/plain.rs", "src/scanner/scalar/block.rs"]}
{"id": "C29", "title": "Block scalar chomping follows the header", "statement": "Strip removes the final line break, Clip keeps exactly one, Keep keeps all of them, for any number of trailing blank lines and also at the end of input.", "quantifier": "every content and every number of trailing breaks", "why_tests_cant": "All layouts including the end-of-input boundary.", "anchors": ["src/scanner/scalar/block.rs scan_chomp"]}
{"id": "C30", "title": "Positions are exact", "statement": "The scanner's byte offset equals the number of bytes consumed, its line equals the number of line breaks consumed and its column the bytes since the last break.", "quantifier": "every input string and every step", "why_tests_cant": "All inputs.", "anchors": ["src/scanner/stats.rs", "src/scanner/macros.rs advance!"]}
{"id": "C31", "title": "Version numbers are exact or rejected", "statement": "A %YAML directive yields the decimal value of its digits when both numbers are at most 255 and an InvalidVersion error when digits are missing or the number is larger.", "quantifier": "every pair of digit strings", "why_tests_cant": "Unbounded digit strings.", "anchors": ["src/scanner/directive.rs"]}
{"id": "C32", "title": "Anchor and alias names are exact", "statement": "An anchor or alias token carries exactly the maximal run of alphanumeric characters after the indicator; empty names and names followed by other characters are rejected.", "quantifier": "every input string", "why_tests_cant": "All names.", "anchors": ["src/scanner/anchor.rs"]}
{"id": "C33", "title": "Implicit keys are short and on one line", "statement": "An implicit (simple) key is only ever recognised when the ':' is on the same line as, and at most 1024 bytes after, the start of the key.", "quantifier": "every input string and every scanner state", "why_tests_cant": "All layouts and lengths.", "anchors": ["src/scanner/mod.rs expire_stale_saved_key, fetch_value, save_key"]}
{"id": "C34", "title": "Documents of a stream are scanned independently", "statement": "A document's tokens do not depend on the documents before it: scanning A, a document marker, and B yields B's tokens as if B were scanned alone.", "quantifier": "every pair of documents", "why_tests_cant": "All pairs of documents.", "anchors": ["src/scanner/context.rs reset, started", "src/scanner/mod.rs fetch_document_marker"]}
{"id": "C35", "title": "Errors are classified consistently", "statement": "Every scanner, parser and reader error maps to exactly one public error code and category; IO errors keep category IO and convert back to the same IO error; an internal request for more input surfaces as unexpected EOF.", "quantifier": "every error value", "why_tests_cant": "Totality and injectivity of a mapping across four layers.", "anchors": ["src/error.rs", "src/event/error.rs", "src/reader/error.rs", "src/scanner/error.rs"]}
{"id": "C36", "title": "Byte input is accepted exactly when it is UTF-8", "statement": "Constructing a reader from bytes succeeds exactly when the bytes are well-formed UTF-8 and then exposes the same bytes.", "quantifier": "every byte string", "why_tests_cant": "All byte strings.", "anchors": ["src/reader/borrow.rs try_from_bytes", "src/reader/owned.rs refresh_buffer"]}
{"id": "C37", "title": "Peeking does not disturb the token stream", "statement": "Peeking any number of times returns the token the next pop returns and changes no later pop.", "quantifier": "every reader state and every sequence of peeks and pops", "why_tests_cant": "All interleavings.", "anchors": ["src/reader/mod.rs PeekReader"]}
{"id": "C38", "title": "Implicit/explicit document flags are truthful", "statement": "DocumentStart is marked explicit exactly when a '---' token introduced it and DocumentEnd exactly when a '...' token closed it.", "quantifier": "every token source", "why_tests_cant": "All document layouts.", "anchors": ["src/event/parser/mod.rs explicit_document_start, document_end"]}
{"id": "C39", "title": "Verbatim tags are accepted", "statement": "A verbatim tag !<uri> is scanned to a tag token carrying uri.", "quantifier": "every uri", "why_tests_cant": "No unit test covers verbatim tags.", "anchors": ["src/scanner/tag.rs scan_node_tag"]}
{"id": "C40", "title": "Comments and blank space are insignificant", "statement": "White space and comments between tokens are skipped completely and never change the following token, except for the position and line information.", "quantifier": "every run of blanks, breaks and comments", "why_tests_cant": "Unbounded runs.", "anchors": ["src/scanner/mod.rs eat_whitespace"]}
{"id": "C41", "title": "Events are exactly the translation of the tokens", "statement": "The event iterator ends successfully over a token sequence exactly when the sequence starts with a sentence of the token grammar (the documented productions over tokens, with omitted nodes as empty scalars), and the events delivered are then the translation of that sentence.", "quantifier": "every token sequence and every event sequence", "why_tests_cant": "Both directions range over unboundedly nested streams.", "anchors": ["src/event/parser/mod.rs Parser::next_event", "src/event/types.rs"]}
{"id": "C42", "title": "Every token read is accounted for by exactly one event", "statement": "The tokens consumed so far, cut in order into one group per delivered event, stand for these events (the marker or indicator tokens, properties and content the event announces); no token is skipped, repeated or reordered, also when the stream later fails.", "quantifier": "every token sequence, every number of calls to next()", "why_tests_cant": "A dropped token only shows for particular sequences.", "anchors": ["src/event/parser/mod.rs Parser::next_event"]}
{"id": "C43", "title": "Every request to a reader is answered", "statement": "Asking a reader for more tokens always returns, with tokens, an error or a panic: it never scans or refills for ever, whatever the text, the options, the way the source divides its bytes, its pauses and its failures, and whatever happened before, including earlier errors.", "quantifier": "every text, every source with pauses and failures, every sequence of requests", "why_tests_cant": "termination of nested loops over arbitrary text and sources cannot be established by running finitely many of them", "anchors": ["src/reader/owned.rs drive_scanner", "src/scanner/mod.rs scan_tokens", "src/reader/mod.rs PeekReader"]}
{"id": "C44", "title": "Streams give the events YAML says", "statement": "A text that is a stream of YAML documents (block and flow collections, plain, quoted and block scalars, anchors, tags, aliases, comments, implicit and explicit keys, directives, document markers) is read without an error, and the events are exactly the documents with their versions, tag prefixes and markers, and their nodes with texts, styles, anchors, tags and placement, between the start and the end of the stream.", "quantifier": "every text and every derivation of it in an independent grammar of YAML streams, of any number of documents, any nesting depth and any length", "why_tests_cant": "Documents nest without bound and can be indented, wrapped and commented in any way; the tests hold a few dozen.", "anchors": ["src/event/mod.rs:Events", "src/event/parser/mod.rs:Parser", "src/scanner/mod.rs:Scanner", "src/scanner/context.rs:Context", "src/reader/mod.rs:PeekReader"]}
{"id": "C45", "title": "The events of a text are those of its tokens", "statement": "However the event parser interleaves peeking and popping, the events it yields for a text are those it yields for the plain list of the tokens of the text, up to the first error; whether and when tokens are scanned is not observable.", "quantifier": "every well-formed text, eager and lazy, every number of calls", "why_tests_cant": "The parser decides from its state when to peek and when to pop, and the reader scans ahead in batches of its own; all interleavings reached by all texts have to agree.", "anchors": ["src/event/parser/mod.rs:Parser::next_event", "src/event/parser/macros.rs", "src/reader/mod.rs:PeekReader"]}
{"id": "C46", "title": "Columns decide about block collections", "statement": "The tokens of a text are found one after the other, with nothing but white space and comments between them. A block sequence or mapping is opened where an entry stands further to the right than the innermost open one (or a dash in the column of a mapping), its entries stand in its column, and it is closed where something further to the left follows or the document is over. The key of a pair is a node on the line of the colon, at most 1024 bytes before it. A plain or block scalar is read with the indentation of the innermost block collection and with knowledge of whether a flow collection is open.", "quantifier": "every well-formed text without verbatim tags, read eagerly, every schedule of scanning and taking tokens, streams that end in an error included", "why_tests_cant": "Indentation interacts with flow collections, keys found only at the colon, document markers and comments; the nesting is unbounded and the tests hold a few shapes.", "anchors": ["src/scanner/mod.rs:Scanner::roll_indent", "src/scanner/mod.rs:Scanner::unroll_indent", "src/scanner/mod.rs:pop_zero_indent_sequence", "src/scanner/mod.rs:save_key", "src/scanner/context.rs:Context"]}
{"id": "C47", "title": "JSON texts are read as the values they denote", "statement": "For a text that is JSON (RFC 8259), the event iterator yields the events of one document without markers whose node is the value the text denotes: objects and arrays as mappings and sequences, strings with their escapes replaced, numbers and literals as plain scalars, in the order of the text, and no error; white space between the tokens does not matter.", "quantifier": "every JSON text and its value, of any size and nesting, given as text or through a byte source in pieces of any sizes", "why_tests_cant": "The JSON texts, their nesting and white space are unbounded, and the limits on keys, the handling of escapes and the look-ahead of the scanner only show on some of them.", "anchors": ["src/event/mod.rs:from_reader", "src/scanner/mod.rs:Scanner", "src/scanner/scalar/flow.rs:scan_flow_scalar", "src/scanner/scalar/escape.rs:flow_unescape", "src/event/parser/mod.rs:Parser::next_event"]}
{"id": "C48", "title": "Marks of events rise and point at their tokens", "statement": "The start and end marks of the events of a text never decrease, from the start to the end mark of an event and on to the next event, and lie within the text. The end mark of an event is the position of the token it is made from (for events that stand for nothing written, of the token that follows); the content of a scalar is written in the text and ends exactly at its end mark.", "quantifier": "every well-formed text, eager and lazy (content of scalars: eager, no verbatim tags), every number of events up to the first error", "why_tests_cant": "Marks are taken from tokens that are peeked at or popped in many states of the parser, keys are inserted into the stream after the fact, and every nesting and combination of properties takes a different path.", "anchors": ["src/event/types.rs:Event::start", "src/event/types.rs:Event::end", "src/event/parser/macros.rs:peek", "src/event/parser/mod.rs:node"]}
{"id": "C49", "title": "Marks enclose the text of the event", "statement": "Each event has a start and end mark indicating the approximate range of the text it represents: the text of a scalar and its properties lies between the two marks.", "quantifier": "every text and every event", "why_tests_cant": "Needs the marks of events at every position of every text.", "anchors": ["src/event/types.rs:Event", "src/event/parser/mod.rs:node"]}
{"id": "C50", "title": "Events compare equal exactly when they say the same", "statement": "Two delivered events compare equal with == exactly if they have the same marks and the same data: texts are compared by content, whether borrowed or copied, and tag directives as a map, in whatever order they were declared. Equality is reflexive, symmetric and transitive on events whose scalars are evaluated, and the events of a text equal those of a byte source with the same text.", "quantifier": "all pairs of events delivered by parsers over any sources of tokens", "why_tests_cant": "the parser's output has to be compared for all pairs of events; reflexivity has to hold for each", "anchors": ["src/event/types.rs: PartialEq for Event, EventData, Node, ScalarLike, Directives", "src/event/parser/mod.rs: scan_document_directives"]}
{"id": "C51", "title": "Iterators over one reader do not disturb each other", "statement": "A reader is only borrowed by the iterators made from it, so several can be made from one reader. However their calls alternate, each of them gives the answers it gives when it is the only one, or an error.", "quantifier": "all texts and byte sources, all numbers of iterators, lazy or not, and all orders of their calls", "why_tests_cant": "the orders of calls of several iterators cannot be enumerated", "anchors": ["src/event/mod.rs: from_reader, from_reader_with, Events, EventIter", "src/reader/owned.rs: OwnedReader, ReadHolder", "src/reader/borrow.rs: BorrowReader", "src/event/error.rs: ParseError::CorruptStream"]}
{"id": "C52", "title": "An undefined tag costs one event, and skipping it leaves a sentence", "statement": "A node whose tag handle is not defined is reported as one error in the place of its event. The iterator goes on behind it as if the event had been delivered, so the stream is grammatical once the event is put back. The documented loop over filter_map(Result::ok) also sees a grammatical stream.", "quantifier": "all token sources and texts, any number of undefined tags, any number of calls", "why_tests_cant": "the state after an error has to be right for every nesting and position of the failing node", "anchors": ["src/event/parser/mod.rs: node, validate_event_tag, validate_tag", "src/event/mod.rs: Events::iter, EventIter, EventIterRef", "src/event/error.rs: ParseError::UndefinedTag"]}
{"id": "C53", "title": "Between two errors the events are a stretch of a grammatical stream", "statement": "A consumer that goes on after an error, of whatever kind, never sees events that contradict each other: wherever it begins to listen, the events up to the next error are a contiguous stretch of some stream of the documented grammar. In particular ends match their starts, values follow keys and placement hints fit.", "quantifier": "all token sources, all points in the stream, all numbers of errors of all kinds before them", "why_tests_cant": "errors can leave the parser in any of its states, with any stack of open collections", "anchors": ["src/event/parser/mod.rs: Parser, state_transition, node", "src/event/parser/state.rs: State, StateMachine", "src/event/mod.rs: EventIter, EventIterRef"]}
{"id": "C54", "title": "Errors of the source reach the consumer", "statement": "Every error met while reading, be it an I/O error, invalid UTF-8 or malformed text, is returned by the call of next during which it was met: in order, none swallowed, none repeated, none made up. So a consumer that has seen no error knows that reading met none.", "quantifier": "all token sources, all numbers of calls, all errors at any point", "why_tests_cant": "the parser reads in many places, each of which can fail in each state", "anchors": ["src/event/parser/macros.rs: peek!, pop!, consume!", "src/event/parser/mod.rs: Parser, scan_document_directives, fetch_anchor, fetch_tag", "src/event/error.rs: From<ReaderError>"]}
{"id": "C55", "title": "Events delivered are not taken back", "statement": "An event that was delivered does not depend on tokens the source delivers later: whatever tokens follow those read so far, and whether the source then ends or fails, the same events are delivered first, and the same errors of the parser. A streaming consumer can act on an event as soon as it has it.", "quantifier": "all lists of tokens read so far, all continuations, all ways to end, any number of calls", "why_tests_cant": "all continuations of a stream would have to be tried", "anchors": ["src/event/parser/mod.rs: Parser, next_event, state_transition", "src/reader: PeekReader"]}
{"id": "C56", "title": "The iterator reads at most one token ahead", "statement": "The answers of any number of calls of next depend on the tokens taken so far and on the one behind them, on nothing further. So an event is available as soon as the token after it is, and a source that stalls or fails later does not hold it back.", "quantifier": "all lists of tokens, all ways to end, any number of calls, everything that may follow", "why_tests_cant": "all rests of a stream would have to be tried at every point", "anchors": ["src/event/parser/mod.rs: Parser, next_event, state_transition, scan_document_directives", "src/reader: PeekReader"]}
