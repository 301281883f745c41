{"claims": [
 {"property": "C01", "status": "proved", "theorems": ["C01_event_grammar", "C01_documented_root_refuted"], "note": "for every token source; the documented 'content?' production is refuted by a root alias"},
 {"property": "C02", "status": "proved", "theorems": ["C02_fused", "C02_exhausted_source"], "note": ""},
 {"property": "C03", "status": "proved", "theorems": ["C03_placement"], "note": ""},
 {"property": "C04", "status": "proved", "theorems": ["C04_tags_resolve", "C04_undefined_tag"], "note": ""},
 {"property": "C05", "status": "proved", "theorems": ["C05_directive_scope"], "note": "over every token list"},
 {"property": "C06", "status": "proved", "theorems": ["C06_duplicate_directives"], "note": "for every position where a document may start with directives"},
 {"property": "C07", "status": "partial", "theorems": ["C07_default_handles_refuted"], "note": "refuted for every prefix: redefining a default handle is always DuplicateTagDirective"},
 {"property": "C08", "status": "proved", "theorems": ["C08_node_tags"], "note": ""},
 {"property": "C09", "status": "proved", "theorems": ["C09_requests_return", "C09_tokens_bounded", "C09_stream_ends", "C09_events_end", "C09_source_events_partial"], "note": "for the borrowed reader, every text, option set and schedule; in addition for events from byte sources without failures, of ASCII texts or at most 8192 bytes (partial)"},
 {"property": "C10", "status": "partial", "theorems": ["C10_iteration_ends_refuted", "C09_events_end"], "note": "The property is false of the code: after a scan error the iterator repeats the error for ever. C09_events_end is the part that holds: a text has finitely many events before the end or the first error."},
 {"property": "C11", "status": "proved", "theorems": ["C11_stable_queue", "C11_stable_sort"], "note": "The binary heap of the standard library is modelled by its contract (pop returns a least element); the tie break is the code's."},
 {"property": "C12", "status": "proved", "theorems": ["C12_tokens_in_order"], "note": "every interleaving of scanning and popping"},
 {"property": "C13", "status": "proved", "theorems": ["C13_schedules_agree", "C13_complete", "C13_peek_reader"], "note": "every schedule; the peeking reader is one of them"},
 {"property": "C14", "status": "proved", "theorems": ["C14_stream_start", "C14_stream_end"], "note": ""},
 {"property": "C15", "status": "proved", "theorems": ["C15_blocks_nested", "C15_blocks_closed"], "note": ""},
 {"property": "C16", "status": "proved", "theorems": ["C16_flows_nested", "C16_flow_depth", "C16_underflow_is_error"], "note": "an unopened bracket after a comment with multi-byte characters panics instead (see C19)"},
 {"property": "C17", "status": "partial", "theorems": ["C17_divisions", "C17_chunks_partial", "C17_lazy_partial", "C17_events_partial", "C17_lazy_events_partial", "C17_straddle_refuted", "C17_lazy_refuted"], "note": "The division of the source into reads never matters (all sources and options). Equality with the reader over the whole text: eager scanning for tokens and events; deferred scalars for tokens and events of texts without carriage returns, up to the option to ask for more text that stays in deferred block scalars. The property as stated is false of the code for multi-byte characters across a block end and for lazily scanned block scalars (refutations proved)."},
 {"property": "C18", "status": "partial", "theorems": ["C18_unread", "C18_position_partial", "C18_buffers", "C18_failure_refuted"], "note": "Unread input is always a suffix of the input and only shrinks, and borrowed text lies in retained buffers: all sources and options. That counted bytes and unread bytes make up the input: texts without verbatim tags, and with deferred scalars without carriage returns and before the end of the input. False when the source fails in the middle of a refill (refuted)."},
 {"property": "C19", "status": "partial", "theorems": ["C19_no_panic_partial", "C19_no_panic_refuted", "C19_parser_calm", "C19_events_partial", "C19_source_events_partial", "C19_assertion_refuted"], "note": "False as stated: eight valid texts panic, and an assertion of the parser fails in debug builds. Proved for ASCII texts whose escapes denote characters and whose percent escapes denote ASCII octets, for lazy readers without further condition and for eager readers if no block scalar header occurs, for every consumer of the tokens and for the event iterator of a release build, over texts and byte sources, up to the first error; for every other text the parser adds no panic to those of the scanner."},
 {"property": "C20", "status": "partial", "theorems": ["C20_deferred_scalars_partial", "C20_events_partial", "C20_block_refuted", "C20_backslash_refuted", "C20_wide_break_refuted"], "note": "For ASCII texts without two backslashes in a row, every request schedule: the lazy reader delivers what the eager reader delivers, at the same positions, and each deferred scalar evaluates to the eager token, up to the final line break of block scalars; C20_events_partial states the same for the iterator of events, including its end and the errors of the parser. Refuted beyond that: a block scalar loses its final line break, an escaped backslash before the closing quote ends in an error, a plain scalar before a colon and a multi-byte line break panics."},
 {"property": "C21", "status": "proved", "theorems": ["C21_evaluation"], "note": "evaluate_by_ref leaves the documented empty scalar behind when evaluation fails."},
 {"property": "C22", "status": "partial", "theorems": ["C22_round_trip_partial", "C22_round_trip_refuted", "C26_single_quoted"], "note": "Proved for ASCII texts; refuted otherwise: the scanner advances one byte at a time and panics inside a multi-byte character."},
 {"property": "C23", "status": "partial", "theorems": ["C23_double_quoted_partial", "C23_quoted_complete", "C23_escapes", "C24_wide_escape_refuted"], "note": "Sound for texts whose eight digit escapes begin with 000 or 001, complete for ASCII sources and all sequences of escapes; refuted for wider escapes."},
 {"property": "C24", "status": "partial", "theorems": ["C23_escapes", "C23_double_quoted_partial", "C24_wide_escape_refuted", "C24_surrogate_refuted"], "note": "Escapes that denote a character give its encoding (all characters); escapes of surrogates panic and escapes above the Unicode range may be accepted, so the rejection half is refuted."},
 {"property": "C25", "status": "proved", "theorems": ["C25_node_tag_decodes", "C25_tag_prefix_decodes", "C25_uri_sound", "C25_every_text"], "note": "Octets that are not UTF-8 are outside the premise: the code panics on them (see C19)."},
 {"property": "C26", "status": "proved", "theorems": ["C26_single_quoted", "C26_folding", "C23_double_quoted_partial", "C23_quoted_complete"], "note": "Folding relation: quoted (q_blanks, q_fold, q_join) of SpecQuoted.v."},
 {"property": "C27", "status": "partial", "theorems": ["C27_streams", "C27_trimmed", "C27_accepted_partial", "C27_lines", "C46_layout", "C27_multibyte_refuted"], "note": "Soundness for every stream; C46_layout gives the context (flow, indent) from the collections that are open. Acceptance for ASCII texts at the root, and inside collections by C44. Missing: acceptance of plain scalars with characters beyond ASCII, where the program panics (refuted)."},
 {"property": "C28", "status": "proved", "theorems": ["C28_borrowed"], "note": "All styles; the token's end position is tied to the text for texts without verbatim tags (which the scanner misplaces, see C30)."},
 {"property": "C29", "status": "partial", "theorems": ["C29_streams", "C29_determined", "C29_accepted_partial", "C29_chomping_partial", "C29_last_line_refuted", "C29_crlf_refuted", "C29_empty_refuted", "C29_sibling_refuted", "C29_explicit_refuted", "C29_multibyte_refuted"], "note": "Every block scalar delivered has the value its source stands for, up to the last line break; for line feeds only a single last line can lose it. Acceptance and exact chomping proved for ASCII texts that are one block scalar. The property itself is false: refutations."},
 {"property": "C30", "status": "partial", "theorems": ["C30_positions_partial", "C30_positions_refuted"], "note": "false after verbatim tags and for a lazy block scalar header at the end of the text; proved for all other texts"},
 {"property": "C31", "status": "proved", "theorems": ["C31_versions", "C31_accepted", "C31_rejected", "C31_without_dot"], "note": "For all texts and schedules: every version directive delivered carries the decimal values (<=255) of its digits; at the start of a text, all pairs of valid numbers are accepted and all others give InvalidVersion."},
 {"property": "C32", "status": "proved", "theorems": ["C32_names", "C32_accepted", "C32_rejected"], "note": "For all texts and schedules; the name is followed by one of the characters the scanner allows after a name (space, line feed, ? , ] } % @ backtick), which is the code's rule and narrower than YAML's."},
 {"property": "C33", "status": "proved", "theorems": ["C33_implicit_keys"], "note": ""},
 {"property": "C34", "status": "partial", "theorems": ["C34_documents_independent_refuted", "C34_alone_partial", "C34_markers_partial"], "note": "Refuted: after a block collection at the first column later documents open none. Proved: behind a document marker before which no block collection was opened and every flow collection closed, the tokens and the outcome are those of the text alone, for any requests (C34_alone_partial); of everything before a marker outside of flow collections only whether a block collection was opened matters (C34_markers_partial). Missing: markers inside of flow collections."},
 {"property": "C35", "status": "proved", "theorems": ["C35_categories", "C35_io", "C35_codes"], "note": ""},
 {"property": "C36", "status": "proved", "theorems": ["C36_bytes"], "note": ""},
 {"property": "C37", "status": "proved", "theorems": ["C37_peek", "C37_consume"], "note": ""},
 {"property": "C38", "status": "proved", "theorems": ["C38_explicit_marks"], "note": ""},
 {"property": "C39", "status": "partial", "theorems": ["C39_verbatim_refuted"], "note": "The property is false of the code for every uri: the closing bracket is looked for one byte too far."},
 {"property": "C40", "status": "partial", "theorems": ["C40_leading_partial", "C40_between_partial", "C40_leading_events_partial", "C40_between_events_partial", "C40_wide_comment_refuted"], "note": "Runs of white space, comments and line breaks before a text or between two tokens are interchangeable for all later tokens and events and the outcome, whatever is requested. Missing: comments with multi-byte characters (refuted: they panic), a comment ended by the end of the text, gaps of different widths on the same line; the two readers are assumed in the same state before the gap."},
 {"property": "C41", "status": "proved", "theorems": ["C41_translation_exact"], "note": ""},
 {"property": "C42", "status": "proved", "theorems": ["C42_tokens_accounted"], "note": ""},
 {"property": "C43", "status": "proved", "theorems": ["C43_requests_end"], "note": "any options; also after earlier errors"},
 {"property": "C44", "status": "partial", "theorems": ["C44_streams_partial", "C44_sources_partial", "C44_lazy_partial", "C44_lazy_source_partial", "C44_spread_entry_refuted", "C44_entry_below_refuted", "C44_indicator_in_flow_refuted", "C44_dash_key_refuted", "C44_empty_key_refuted", "C44_flow_key_refuted", "C44_question_below_refuted"], "note": "Proved for ASCII streams of any number of documents with plain, quoted and block scalars, aliases, block and flow collections, implicit and explicit keys, anchors, tags, comments, %YAML and %TAG directives and document markers, in eager mode from a borrowed text; behind a block collection later documents must be indented (C34). Missing: other characters, verbatim tags (always rejected, C39). Refuted for seven kinds of documents the library rejects or reads differently. C44_sources_partial states the same for a byte source that hands out the text in pieces of any lengths. C44_lazy_partial states the same with deferred scalars, once they are evaluated, for texts without two backslashes in a row and up to the last line break of block scalars. C44_lazy_source_partial combines the two, for texts without carriage returns."},
 {"property": "C45", "status": "proved", "theorems": ["C45_events_of_tokens"], "note": "For borrowed texts."},
 {"property": "C46", "status": "partial", "theorems": ["C46_layout", "C46_below_dash_refuted", "C46_end_in_flow_refuted", "C46_dash_key_refuted", "C46_key_outside_refuted"], "note": "The layout theorem holds for every stream; a sequence in the column of its mapping may also be closed at anything on a later line that is no dash, within flow collections too. That this breaks the property is shown by the refutations."},
 {"property": "C47", "status": "partial", "theorems": ["C47_json_partial", "C47_json_source_partial", "C47_lazy_partial", "C47_lazy_source_partial", "C47_colon_below_refuted", "C47_halves_refuted", "C47_wide_refuted"], "note": "False of the code for JSON with characters that are not ASCII (panic), escaped surrogate pairs (panic), and a colon on a later line than its name (error) or more than 1024 bytes after where it begins (C33). Proved for all other JSON texts read eagerly, and with deferred scalars for those without two backslashes in a row (and, from byte sources, without carriage returns)."},
 {"property": "C48", "status": "proved", "theorems": ["C48_marks_rise", "C48_marks_of_tokens", "C48_scalars", "C48_source_marks_partial"], "note": "for texts; that marks rise also for byte sources without failures, of ASCII texts or at most 8192 bytes (partial)"},
 {"property": "C49", "status": "partial", "theorems": ["C49_range_refuted", "C49_properties_refuted"], "note": "False of the code: tokens carry the position where they end, so the range of a scalar without properties is empty, and with two properties the range begins behind both. What does hold of the marks is C48."},
 {"property": "C50", "status": "partial", "theorems": ["C50_equal_events", "C50_laws", "C50_eager_reflexive", "C50_sources_equal", "C50_reflexive_refuted"], "note": "Reflexivity is false of events with deferred scalars, which do not compare equal to themselves; everything else is proved, for byte sources under the conditions of C17."},
 {"property": "C51", "status": "partial", "theorems": ["C51_borrowed", "C51_sources_refuted"], "note": "Proved for borrowed text. False of byte sources: iterators take the text from each other without an error."},
 {"property": "C52", "status": "partial", "theorems": ["C52_undefined_tag_costs_one_event", "C52_other_events_unaffected", "C52_skipping_refuted"], "note": "proved for every token source that an undefined tag costs exactly the one event and that nothing else depends on it; the last sentence is refuted: skipping the error, as the documented loop does, leaves a stream with unmatched ends"},
 {"property": "C53", "status": "proved", "theorems": ["C53_stretches"], "note": "for every token source, every number of calls and every starting point"},
 {"property": "C54", "status": "proved", "theorems": ["C54_errors_reach_consumer"], "note": "for every token source; what makes the reader answer an error is the subject of C17, C36 and C43"},
 {"property": "C55", "status": "proved", "theorems": ["C55_events_stand", "C55_answers_stand", "C55_texts"], "note": "for every list of tokens and every continuation; C55_texts says it for two texts whose readers give the same tokens before the first fails"},
 {"property": "C56", "status": "proved", "theorems": ["C56_one_token_ahead"], "note": "for every list of tokens, every number of calls and every replacement of the rest; by C45 the events of a text are those of its tokens"}
]}
