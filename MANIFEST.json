{"claims": [
 {"property": "C01", "status": "proved", "theorems": ["C01_fieldsfunc_maximal_runs"], "note": ""},
 {"property": "C02", "status": "proved", "theorems": ["C02_tokenizer_keeps_text", "C02_tokenizer_splits_joined_words"], "note": ""},
 {"property": "C03", "status": "proved", "theorems": ["C03_punctuator_pieces"], "note": ""},
 {"property": "C04", "status": "proved", "theorems": ["C04_splitword_pieces"], "note": ""},
 {"property": "C05", "status": "proved", "theorems": ["C05_never_both", "C05_ispunctuation_iff_isolated", "C05_ishyphen_iff_isolated"], "note": ""},
 {"property": "C06", "status": "proved", "theorems": ["C06_width_total_bounded"], "note": "Go int is unbounded in the model (ambiguous width is caller-chosen)."},
 {"property": "C07", "status": "proved", "theorems": ["C07_cache_is_direct"], "note": ""},
 {"property": "C08", "status": "partial", "theorems": ["C08_widths_three_em_dash_refuted", "C08_widths_panics_refuted", "C08_widths_sum_partial"], "note": "False as stated: Widths counts U+2E3B as 0 (Width: 4) and panics on runes outside 0..10FFFF (Width: 0). Proved for everything else, and unconditionally in East-Asian mode."},
 {"property": "C09", "status": "proved", "theorems": ["C09_widths_additive", "C09_widths_panic_iff", "C09_stringwidth_total"], "note": ""},
 {"property": "C10", "status": "proved", "theorems": ["C10_east_asian_only_ambiguous"], "note": ""},
 {"property": "C11", "status": "proved", "theorems": ["C11_emoji_option"], "note": ""},
 {"property": "C12", "status": "proved", "theorems": ["C12_isambiguous_exact", "C12_lookup_exact_on_sorted_tables", "C12_shipped_tables_sorted"], "note": ""},
 {"property": "C13", "status": "proved", "theorems": ["C13_cache_concurrent", "C13_calls_complete_in_order", "C13_no_deadlock"], "note": "Sequentially consistent interleavings of any number of goroutines; sync.Once modelled from its Go source (load, mutex, re-check, store)."},
 {"property": "C14", "status": "proved", "theorems": ["C14_writerunes_one_utf8_write", "C14_writerunes_same_as_writerune"], "note": ""},
 {"property": "C15", "status": "proved", "theorems": ["C15_decode_written", "C15_decoded_runes_are_valid", "C15_reencode_valid_utf8"], "note": "Go's own codec is modelled from the standard library source."},
 {"property": "C16", "status": "proved", "theorems": ["C16_reader_is_a_cursor"], "note": "SliceFromByteOffsets is constrained only on valid runes (see C18)."},
 {"property": "C17", "status": "proved", "theorems": ["C17_seek_exact"], "note": ""},
 {"property": "C18", "status": "partial", "theorems": ["C18_byte_offsets_on_boundaries", "C18_byte_offsets_any", "C18_byte_offsets_panic_refuted"], "note": "Proved exactly (iff) for all offsets; the unguarded general claim is false: an offset pair strictly inside one rune panics."},
 {"property": "C19", "status": "proved", "theorems": ["C19_slices_exact", "C19_slices_panic_iff", "C19_slices_views", "C19_slice_view", "C19_runes_view", "C19_bytes_views"], "note": ""},
 {"property": "C20", "status": "partial", "theorems": ["C20_striptoken_terminates", "C20_striptoken_lossless_partial", "C20_striptoken_lossless_refuted", "C20_twice_refuted"], "note": "Termination proved for all tokens. Losslessness is false for a token ending right after the third digit of a parameter (ESC[123) and proved for all others. C20_twice_refuted: in that case the last rune of an earlier stop sequence can be returned twice."},
 {"property": "C21", "status": "partial", "theorems": ["C21_striptoken_panics_refuted", "C21_striptoken_overread_refuted", "C21_striptoken_in_bounds_partial", "C21_striptoken_panic_iff", "C21_striptoken_cut"], "note": "False as stated: ESC[123 at the end of a token panics, or reads one rune past the slice when the capacity allows it. Proved for every token with a lexing (every token that is not cut right after a third digit); the panic condition is exact. C21_striptoken_cut: for the other tokens exactly one rune too many is returned."},
 {"property": "C22", "status": "proved", "theorems": ["C22_striptoken_input_untouched"], "note": "Explicit backing array; the in-place append is modelled."},
 {"property": "C23", "status": "partial", "theorems": ["C23_three_digits_refuted", "C23_split_refuted", "C23_stop_sequences_partial", "C23_start_sequences_partial", "C23_exact"], "note": "False: parameters of three digits are misread (ESC[100m is not recognised; ESC[38;255;1m is split). Proved for parameters of at most two digits. C23_exact: ESC[p1;...;pn m is read as formatting exactly when no parameter has more than two digits; otherwise all of it is text."},
 {"property": "C24", "status": "partial", "theorems": ["C24_parts_regroup_items_partial", "C24_parts_exact_partial", "C24_lexing_exists", "C24_lexing_unique"], "note": "The parts are exactly the groups of an independent specification of the regrouping. Proved for every token except those of C20/C21 that are read past their end."},
 {"property": "C25", "status": "proved", "theorems": ["C25_plain_text"], "note": ""},
 {"property": "C26", "status": "proved", "theorems": ["C26_levels", "C26_pushes_all"], "note": "Renderers are the package's own Attribute, each pushed once."},
 {"property": "C27", "status": "proved", "theorems": ["C27_iterator_visits_all", "C27_next_stays_false", "C27_first"], "note": ""},
 {"property": "C28", "status": "partial", "theorems": ["C28_adjacent_runs_refuted", "C28_any_layout_partial", "C28_break_partial", "C28_break_any", "C28_any_document"], "note": "False when two formatted runs follow each other with no plain renderer in between (the second is resumed with the formatting of the first too); proved for all documents whose runs are separated, for every layout on lines. For any document: the exact sequences written at a break, every line ends with no formatting, every word has at least its own formatting and plain words have none."},
 {"property": "C29", "status": "proved", "theorems": ["C29_plain_writes_nothing"], "note": ""},
 {"property": "C30", "status": "proved", "theorems": ["C30_trie_is_a_map"], "note": "Put with a nil value is outside (RuneTrie treats nil as absent)."},
 {"property": "C31", "status": "proved", "theorems": ["C30_trie_is_a_map", "C31_no_dead_branch"], "note": "The answers of Delete are part of C30_trie_is_a_map."},
 {"property": "C32", "status": "proved", "theorems": ["C32_pattern_decoding"], "note": ""},
 {"property": "C33", "status": "proved", "theorems": ["C33_exception_decoding"], "note": ""},
 {"property": "C34", "status": "proved", "theorems": ["C34_file_rules", "C34_any_lines"], "note": "From the bytes of the file: UTF-8 decoding and line scanning included. Lines longer than bufio.Scanner's 64K limit are outside."},
 {"property": "C35", "status": "proved", "theorems": ["C35_cache_shared", "C35_calls_in_order", "C35_no_deadlock"], "note": "Sequentially consistent interleavings of any number of goroutines; the file system does not change."},
 {"property": "C36", "status": "proved", "theorems": ["C36_lossless"], "note": ""},
 {"property": "C37", "status": "partial", "theorems": ["C37_minima_partial", "C37_empty_part_refuted"], "note": "False for minLeft <= 0 with an exception that starts with a hyphen (empty first part); proved for minLeft >= 1."},
 {"property": "C38", "status": "proved", "theorems": ["C38_left_whole"], "note": ""},
 {"property": "C39", "status": "partial", "theorems": ["C39_liang_partial", "C39_any_length_partial", "C39_long_word_refuted", "C39_last_letter_refuted"], "note": "False for long words (positions past 27 are dropped unless a pattern reaches further) and for minRight = 1 (patterns that start at the last letter are not looked up). Proved for minRight >= 2 and words of at most 27+minRight runes; the exact behaviour is proved for every length, and for every value of the minima in C109."},
 {"property": "C40", "status": "proved", "theorems": ["C40_listed_word", "C40_exceptions_override"], "note": ""},
 {"property": "C41", "status": "partial", "theorems": ["C41_case_partial", "C41_case_refuted"], "note": "False on the shipped American dictionary (table/Table): exceptions are looked up with the case of the word. Proved for words that are not exceptions."},
 {"property": "C42", "status": "partial", "theorems": ["C42_no_panic_partial", "C42_negative_minright_refuted", "C109_exact", "C109_shipped"], "note": "False for a negative minRight; proved for minRight >= 0, and for the embedded files with any options. C109 gives the exact condition."},
 {"property": "C43", "status": "partial", "theorems": ["C43_shipped_patterns", "C69_tex_patterns", "C43_shipped_exceptions_partial", "C43_british_exception_refuted"], "note": "Patterns: all files. Exceptions: the last line of the British file is some-thing}, whose closing brace becomes part of the word. Proved for the other languages."},
 {"property": "C60", "status": "proved", "theorems": ["C60_every_language_has_a_file", "C43_shipped_patterns"], "note": ""},
 {"property": "C61", "status": "proved", "theorems": ["C61_shipped_liang"], "note": "Default options, words of 4 to 29 letters."},
 {"property": "C44", "status": "proved", "theorems": ["C44_reflow"], "note": "Plain non-empty tokens; options: any scale that is an integer from 1 to 2^20, any tolerance below 10000 or NaN, any measurer with additive integral widths, any hyphenator and punctuator that cut words in non-empty parts, any hyphen penalty from 0 to 2^100 other than 0, 200, 400 when hyphens are rendered. Any history of plain calls, any map order."},
 {"property": "C45", "status": "partial", "theorems": ["C45_width_partial", "C45_width_unscaled_partial", "C45_real_scale_partial", "C45_tolerance_refuted", "C45_scale_refuted", "C45_scale_above_one_refuted"], "note": "False for a tolerance of 10000 or more and for scale factors that are not integers (words and spaces are rounded one by one); proved for permissible options (see C44) when scaled widths add up, which integral scale factors ensure. For real scale factors s above 2/3 a line made of k pieces exceeds the width by at most 9/16 (k+1) / s (C45_real_scale_partial)."},
 {"property": "C46", "status": "proved", "theorems": ["C46_feasible"], "note": "Tolerances below 10000 (the value that stands for infinity)."},
 {"property": "C47", "status": "proved", "theorems": ["C47_complete"], "note": "Tolerances below 10000."},
 {"property": "C48", "status": "partial", "theorems": ["C48_deterministic_partial", "C48_deterministic_refuted", "C48_determined", "C137_sure"], "note": "False: the lines depend on the iteration order of a map. Proved: whether the paragraph can be set does not, nor does the last line (width up to 4997); and the lines are the same for every order exactly when the greedy layouts of C87 all have the same lines. With a tolerance of at most 1/2 they always are (C137_sure)."},
 {"property": "C49", "status": "partial", "theorems": ["C49_optimal_refuted", "C46_feasible", "C62_longest_last_line"], "note": "False: the demerits are never accumulated. What the search does guarantee is C46, C47 and C62."},
 {"property": "C50", "status": "partial", "theorems": ["C50_one_line_partial", "C50_one_line_any_partial", "C50_some_order_partial", "C50_one_line_refuted", "C50_wide_line_refuted"], "note": "Proved up to a width of 4997; false above 86000, and false for some map orders at 6000. Above 4997 the single line is returned for some map order exactly if at most 86000 columns are left over (C50_some_order_partial)."},
 {"property": "C51", "status": "partial", "theorems": ["C51_returns_partial", "C51_negative_penalty_refuted", "C51_no_parts_refuted", "C110_platform_refuted"], "note": "False for negative hyphen penalties, for hyphenators that return no part and, on amd64, for a scale factor of 0; proved for permissible options (see C44)."},
 {"property": "C52", "status": "partial", "theorems": ["C52_hyphens_partial", "C52_collision_refuted"], "note": "False for the hyphen penalties 0, 200 and 400; proved for the others."},
 {"property": "C53", "status": "partial", "theorems": ["C53_too_wide_partial", "C53_tolerance_refuted"], "note": "False for a tolerance of 10000 or more; proved below."},
 {"property": "C54", "status": "partial", "theorems": ["C54_reuse_partial", "C54_reuse_refuted", "C54_same_layout"], "note": "False after a call on tokens with escape sequences. Proved for histories of plain calls, with any options; for any history: the same lines up to the escape sequences in them (C54_same_layout)."},
 {"property": "C55", "status": "proved", "theorems": ["C55_no_word_break"], "note": ""},
 {"property": "C56", "status": "partial", "theorems": ["C56_sequences_refuted", "C65_formatted_lines"], "note": "False: sequences without text are dropped, a sequence left open is doubled. C65 gives the exact output for tokens made of plain and formatted runs: every sequence is there."},
 {"property": "C57", "status": "proved", "theorems": ["C57_cuts"], "note": "With permissible options (see C44), for any map order. Where a token ends the space is dropped; the kind of cut also says whether a hyphen is added."},
 {"property": "C58", "status": "proved", "theorems": ["C58_trimmed"], "note": "Integral scale factors from 1 to 2^20."},
 {"property": "C59", "status": "partial", "theorems": ["C59_one_space_partial", "C59_spaces", "C59_scale_refuted"], "note": "C59_spaces gives the number of spaces for every scale factor up to 2^19: none below 1/2, two up to 2/3, one above. The claim is thus proved above 2/3 and false below."},
 {"property": "C62", "status": "proved", "theorems": ["C62_longest_last_line"], "note": ""},
 {"property": "C63", "status": "proved", "theorems": ["C63_new_works", "C63_integral_scale", "C63_real_scale"], "note": "Permissible scale factors: integers up to 2^20 and every binary64 above 2/3 up to 2^19."},
 {"property": "C64", "status": "proved", "theorems": ["C64_formatting_neutral"], "note": ""},
 {"property": "C65", "status": "proved", "theorems": ["C65_formatted_lines"], "note": ""},
 {"property": "C66", "status": "proved", "theorems": ["C66_formatted_screen"], "note": ""},
 {"property": "C67", "status": "proved", "theorems": ["C67_width_exact"], "note": ""},
 {"property": "C68", "status": "proved", "theorems": ["C68_strip", "C68_trimmed_once"], "note": "Lines as runes: files in valid UTF-8, lines within bufio.Scanner's limit."},
 {"property": "C69", "status": "partial", "theorems": ["C69_tex_patterns", "C69_tex_exceptions_partial", "C69_british_exception_refuted"], "note": "Patterns: every language. Exceptions: false for British English, where the last word of the group is loaded with the closing brace; proved for the other languages."},
 {"property": "C70", "status": "proved", "theorems": ["C70_tables_of_the_file", "C70_emoji_table", "C70_shapeup_members"], "note": "Fetching, parsing of the lines (Sscanf) and printing are outside the model."},
 {"property": "C71", "status": "proved", "theorems": ["C71_shipped_canonical", "C71_canonical_form"], "note": ""},
 {"property": "C72", "status": "partial", "theorems": ["C72_succeeds_partial", "C72_succeeds_hyphenated_partial", "C72_marks_refuted", "C72_long_words_refuted"], "note": "False for tokens that start with a mark and for words longer than 51 columns; proved for the others, up to a width of 85948, and for tokens that can be hyphenated into such fragments."},
 {"property": "C73", "status": "proved", "theorems": ["C73_ragged", "C73_full"], "note": ""},
 {"property": "C74", "status": "partial", "theorems": ["C74_opening_mark_refuted", "C52_hyphens_partial"], "note": "False: an opening mark is a place where lines can be cut. C52 says where cuts fall."},
 {"property": "C75", "status": "proved", "theorems": ["C75_strings", "C75_errors", "C75_valid", "C75_invalid_refuted"], "note": "Bytes that are not UTF-8 are not kept, as the last theorem shows."},
 {"property": "C76", "status": "proved", "theorems": ["C76_text"], "note": ""},
 {"property": "C77", "status": "proved", "theorems": ["C77_any_language", "C77_default"], "note": ""},
 {"property": "C78", "status": "partial", "theorems": ["C78_any_tokens_partial", "C78_any_width_partial", "C78_empty_token_refuted", "C78_leading_empty_refuted"], "note": "False when the list starts with three empty tokens, a panic. Proved when one of the first three tokens has some text, or there are at most three tokens, and every token can be cut in characters and control sequences as in C20."},
 {"property": "C79", "status": "proved", "theorems": ["C79_no_width", "C79_negative"], "note": "C79_negative: every float64 of -1 or less, -Inf included, for every text and every scale factor. C79_no_width: for any arithmetic, integral widths and scale factors; for a zero width, the first token has some text."},
 {"property": "C80", "status": "proved", "theorems": ["C80_counter", "C80_at_most", "C80_options", "C80_at_least"], "note": "Counts the lines whose adjustment ratio is computed, not the steps of building nodes and rendering. For hyphenators and punctuators that cut words and tokens in lexical units as in C20; the lower bound under the hypotheses of C78."},
 {"property": "C81", "status": "proved", "theorems": ["C81_widths_read", "C81_emojis_read", "C81_printed"], "note": "fmt.Sscanf is modelled for the four formats of the tool, bufio.Scanner for lines that fit its buffer."},
 {"property": "C82", "status": "proved", "theorems": ["C82_shipped_file", "C82_regenerated"], "note": "gofmt is not modelled; the difference of one newline is stated."},
 {"property": "C83", "status": "proved", "theorems": ["C83_tolerance"], "note": "With the hypotheses of C63 on options, tokens and widths."},
 {"property": "C84", "status": "partial", "theorems": ["C84_wordbreak_partial", "C84_wordbreak_refuted"], "note": "False when a token starts with a hyphen. Proved when no piece of the tokens but the first starts with one."},
 {"property": "C85", "status": "partial", "theorems": ["C85_wider_partial", "C85_wider_refuted"], "note": "False, already from 66 to 118 columns. Proved with the default tolerance from widths of at most 51 columns to any of at most 85948, when hyphens are rendered or words not broken and no mark follows a place where the line can be cut."},
 {"property": "C86", "status": "partial", "theorems": ["C86_hyphens_partial", "C86_unhyphenated_partial", "C86_hyphens_refuted"], "note": "False for words that are hyphenated. Proved when words are not broken, and when no line returned with rendered hyphens ends with a hyphen."},
 {"property": "C87", "status": "proved", "theorems": ["C87_exact", "C87_formatted", "C87_formatted_shown"], "note": "With the hypotheses of C63 on options, tokens and widths. C87_formatted_shown: with escape sequences, what is returned is a function of the layout."},
 {"property": "C88", "status": "partial", "theorems": ["C88_penalty_partial", "C88_penalty_refuted"], "note": "False: the penalty makes no difference but for 10000. Proved: any two penalties that both equal, or both differ from, 10000 give the same set of results."},
 {"property": "C89", "status": "proved", "theorems": ["C89_infinite_penalty"], "note": "With the hypotheses of C63 on options, tokens and widths."},
 {"property": "C90", "status": "partial", "theorems": ["C90_looseness_partial", "C90_looseness_refuted"], "note": "False: the looseness is ignored. Proved: New with and without WithLooseness gives the same line breaker."},
 {"property": "C91", "status": "partial", "theorems": ["C91_some_order_partial", "C91_formatted_partial", "C91_fewest_refuted", "C91_mark_refuted", "C91_thin_refuted", "C87_exact"], "note": "False, for one of the iteration orders of the map. Proved: for any layout within a tolerance of at least 0, some iteration order returns no more lines, when no mark follows a place where the line can be cut and, if hyphens are rendered, no part of a word is narrower than the hyphen. False without either condition, whatever the order. The same for formatted tokens. Which layouts are returned is C87."},
 {"property": "C92", "status": "partial", "theorems": ["C92_language_partial", "C92_always_usable", "C92_default_hyphenator", "C92_language_refuted"], "note": "The matcher of golang.org/x/text is not modelled: theorems quantify over what it answers. False for a matcher that keeps the region in the tag it returns (fr-u-rg-frzzzz): tags are compared with ==, and American patterns are used. Proved when the answer is one of the supported tags."},
 {"property": "C93", "status": "proved", "theorems": ["C93_last_option_wins", "C93_last_option"], "note": ""},
 {"property": "C94", "status": "proved", "theorems": ["C94_sorted", "C94_loads"], "note": ""},
 {"property": "C95", "status": "partial", "theorems": ["C95_scale_partial", "C95_scale_refuted"], "note": "False: the stretch of a line is not scaled, so a greater factor allows less room on each line (\"aa bbbbbbbb\" at width 8 with factor 10). Proved: set with an integral factor implies set with any smaller one, for any tolerance."},
 {"property": "C96", "status": "partial", "theorems": ["C96_excerpt_partial", "C96_excerpt_refuted"], "note": "False when the first word is left out. Proved for the beginnings of a text, when the tolerance allows for an empty last line (widths up to 85948 with the default tolerance)."},
 {"property": "C97", "status": "partial", "theorems": ["C97_independent_partial", "C97_append_overwrites", "C97_independent_refuted"], "note": "False for append: parts keep the capacity of the word, so that appending writes over what follows; always the next part for the hyphenator. Proved for setting elements."},
 {"property": "C98", "status": "proved", "theorems": ["C98_infinite", "C98_huge", "C98_nan"], "note": "Neither +Inf nor a huge number (2^53 or more) means lines without limits. For NaN: non-negative tolerances."},
 {"property": "C99", "status": "partial", "theorems": ["C99_exclusive_partial", "C99_shared_refuted"], "note": "False: a call keeps its nodes and widths in the LineBreaker, where another call overwrites them (wrong text, or a panic). Proved: any number of goroutines and line breakers, as long as calls on the same line breaker do not overlap."},
 {"property": "C100", "status": "partial", "theorems": ["C100_new_works", "C100_lines_partial", "C100_rounded", "C100_width_refuted", "C100_unit_refuted"], "note": "False: the width is rounded to the nearest integer (11 columns for 10.5), and a measurer with another unit than the space joins words or doubles spaces. Proved on binary64: a line exceeds the width by at most 9/16 (k + 1) / s, where k is its number of pieces and s the scale factor; with the default factor, a width is the same as the nearest integer."},
 {"property": "C101", "status": "partial", "theorems": ["C101_again_partial", "C101_same", "C101_whole", "C101_sure", "C101_lines_refuted"], "note": "False for words that were cut: their parts are words of their own, whose hyphens may move. Proved: the second call returns lines too; lines made of whole tokens stay the same; tokens without punctuation that are not broken make such lines. With a tolerance of at most 1/2 the orders of the maps may differ (C101_sure)."},
 {"property": "C102", "status": "partial", "theorems": ["C102_alone_partial", "C102_open_refuted", "C102_leak_refuted", "C102_lost_refuted"], "note": "False for start sequences that are never closed (lines leave their formatting in force) and for two start sequences before a stop sequence (the text after the stop sequence is shown formatted on the next lines, text under both may lose the first one). Proved for passages between one start and one stop sequence, over any number of tokens: each line stands alone (C65 and C66 give the lines and what they show)."},
 {"property": "C103", "status": "partial", "theorems": ["C103_copies_partial", "C103_total", "C103_shared_refuted", "C103_twice_refuted", "C103_late_refuted"], "note": "False when a renderer is pushed to two States or twice to one, and when a stop sequence is set after the next Push. Proved for programs that push each renderer at most once, leave levels to Push and set stop sequences in time. Push panics on a nil *Attribute."},
 {"property": "C104", "status": "partial", "theorems": ["C104_prefix", "C104_timely_partial", "C104_stuck", "C104_refuted"], "note": "False for an iterator made on an empty State and for one that has reached the end: they stay at the end. Proved: what is seen is always the beginning of the State, in order; and all of it when Next is only called while there is a renderer left."},
 {"property": "C105", "status": "partial", "theorems": ["C105_order", "C105_nested_partial", "C105_nested_iff", "C105_nested_refuted"], "note": "False: Stop follows the same order as Start, so that tags overlap. Proved when at most one renderer has a stop sequence."},
 {"property": "C106", "status": "partial", "theorems": ["C106_reliable", "C106_prefix_partial", "C106_hole_refuted"], "note": "False: errors are dropped, so that a writer that fails once and goes on gets a text with a hole (a lost stop sequence formats the rest of the document). Proved for writers that take nothing after an error, such as bufio.Writer."},
 {"property": "C107", "status": "proved", "theorems": ["C107_counter", "C107_work", "C107_depth", "C107_shipped"], "note": "Counts calls of Get and reads of maps; merging positions and cutting the word are not counted."},
 {"property": "C108", "status": "proved", "theorems": ["C108_counter", "C108_linear"], "note": "Counts calls of ReadRune; runes copied by the in-place append are not counted."},
 {"property": "C109", "status": "proved", "theorems": ["C109_exact", "C109_shipped"], "note": "Words are not empty; files of well-formed lines. A slice with spare capacity panics as well: the last part is cut from the end of the word."},
 {"property": "C110", "status": "proved", "theorems": ["C110_conversion", "C110_same", "C110_lines", "C110_set", "C110_platform_refuted"], "note": "C110_conversion is for any arithmetic and any two conversions to int that agree on the blanks, C110_same for binary64. C110_platform_refuted: why the condition is needed: with a scale factor of 0 every blank is 0/0 columns wide, which panics on amd64 and drops the blanks on arm64. C110_lines, C110_set: on plain tokens with permissible options (see C44), also over different map orders on the two platforms."},
 {"property": "C111", "status": "partial", "theorems": ["C111_kept_partial", "C111_grows", "C111_bounded_refuted", "C111_keeps_all", "C111_adds"], "note": "False: each call adds the renderers of its text to those of all earlier calls, which are never dropped. Proved, for any tokens that can be read, any width and any option value with word breakers that keep the words: the texts kept are those of all the calls so far, in order. For plain tokens and permissible options (see C44): one renderer for each fragment."},
 {"property": "C112", "status": "proved", "theorems": ["C112_tolerance"], "note": "On binary64, for every width (NaN and infinities included), every text and every permissible option (see C44)."},
 {"property": "C113", "status": "partial", "theorems": ["C113_forbid_partial", "C113_forbid_refuted"], "note": "False for texts with punctuation marks: the option also sets the cost of two breaks in a row at marks or hyphens, so that +Inf forbids lines that end with a mark after one that does (\"abc,def\" cannot be set on 4 columns). Proved for every readable text without punctuation marks and hyphens, every width and every permissible option (see C44), on binary64; math.Pow is assumed to overflow to +Inf from 2^512 on and to have cubes of the sign of the number."},
 {"property": "C114", "status": "proved", "theorems": ["C114_layout", "C114_inside_refuted"], "note": "Any measurer, hyphenator, penalties and punctuator (one that cuts the empty word into nothing, as the default one does). Tokens that end in a sequence cut short after three digits are excluded (C21). C114_inside_refuted: a sequence inside a word does change the lines, since the two parts are hyphenated on their own."},
 {"property": "C115", "status": "proved", "theorems": ["C115_search", "C115_call", "C115_panics", "C115_empty"], "note": "For any arithmetic, in particular binary64. The main loop of the search has fuel in the model: C115_search shows that more fuel changes nothing and that it is never used up. Tokens that end in a sequence cut short after three digits are excluded (C21)."},
 {"property": "C116", "status": "proved", "theorems": ["C116_size", "C116_least", "C116_most"], "note": "Widths are scaled ones: those of the measurer with the default scale factor. For permissible options (see C44). The bounds on the width suppose that widths add up, as with integral scale factors."},
 {"property": "C117", "status": "partial", "theorems": ["C117_measurer", "C117_columns_partial", "C117_columns_refuted"], "note": "False for U+2E3B, which has four columns and is counted for none outside the East-Asian mode (C08). Proved for all other characters, with permissible options (see C44) and a scale factor of 1."},
 {"property": "C118", "status": "partial", "theorems": ["C118_characters_partial", "C118_characters_refuted"], "note": "False: the default is runes.Widths, which counts 2 for wide characters and 0 for combining ones. Proved for texts made of characters of one column."},
 {"property": "C119", "status": "partial", "theorems": ["C119_combining_partial", "C119_mark_refuted", "C119_hyphen_refuted"], "note": "False after a punctuation mark (# followed by U+20E3) and with the American patterns (s followed by U+0323 in misriyya). Proved, for any set of runes, when no token starts with one of them, none follows a punctuation mark or a hyphen, and the hyphenator cuts before none of them (or words are not broken), with the default punctuator."},
 {"property": "C120", "status": "proved", "theorems": ["C120_closing", "C120_no_mark_first"], "note": "With the hypotheses of C63 on options, tokens and widths, and the default punctuator."},
 {"property": "C121", "status": "partial", "theorems": ["C121_wider_partial", "C121_wider_refuted"], "note": "False with the same iteration order of the map (4 lines at width 6, 5 at width 7). Proved for some order, with the conditions of C85 and parts of words no narrower than the hyphen."},
 {"property": "C122", "status": "partial", "theorems": ["C122_tolerance_partial", "C122_wordbreak_partial", "C122_scale_partial", "C122_tolerance_refuted", "C122_wordbreak_refuted", "C122_scale_refuted"], "note": "False with the same iteration order of the map, for each of the three options. Proved for some order, with the conditions of C91 and, for each option, of C83, C84 and C95."},
 {"property": "C123", "status": "partial", "theorems": ["C123_beginning_partial", "C123_beginning_refuted"], "note": "False with the same iteration order of the map (one word more, one line less). Proved for some order, with the conditions of C91 and C96."},
 {"property": "C124", "status": "partial", "theorems": ["C124_filled_partial", "C124_words_partial", "C124_count_partial", "C124_first_refuted"], "note": "Proved for every iteration order of the map, if no mark comes just after a place where the line can be cut; the bound for words also asks for parts of words no narrower than the hyphen, and hyphens rendered or no word breaking. It does not hold of the first line: witness."},
 {"property": "C125", "status": "partial", "theorems": ["C125_rest_partial", "C125_words_partial", "C125_mark_refuted", "C125_before_refuted"], "note": "The lines after a cut: proved, for some iteration order of the rest, when the rest does not start with a mark; false otherwise. The lines before it: false, whatever the order, since the last line of the beginning alone is as long as can be."},
 {"property": "C126", "status": "proved", "theorems": ["C126_pieces", "C126_half_refuted"], "note": "Tokens that end in a sequence cut short after three digits are excluded (C21). C126_half_refuted: it does not hold of a token cut anywhere."},
 {"property": "C127", "status": "partial", "theorems": ["C127_right_partial", "C127_count", "C127_left_refuted"], "note": "False for WithMinLeft, which also counts from the last hyphen: education is cut ed-uca-tion with 2, edu-cation with 3. Proved for the two others together, and that no option makes more parts when it is stricter (minRight not negative)."},
 {"property": "C128", "status": "partial", "theorems": ["C128_stable", "C128_order", "C128_hyphenator_refuted", "C128_hyphen_order_refuted"], "note": "Proved for the tokenizer, the punctuator and SplitWord, whatever the table of punctuation marks. False for the hyphenator: its parts are words of their own (reci-procity, re-ci), and a word with a hyphen is left whole."},
 {"property": "C129", "status": "partial", "theorems": ["C129_replaced", "C129_kinds", "C129_case_partial", "C129_exception_refuted"], "note": "Proved for replacements that the word breakers do not see: any replacement when words are not broken, and changes of case for hyphenated words that are not exceptions. False for exceptions, which are looked up with the case of the word (C41): table can be cut, TABLE cannot."},
 {"property": "C130", "status": "partial", "theorems": ["C130_joined_partial", "C130_tokenizer_refuted", "C130_hyphen_refuted", "C130_mark_refuted", "C130_joiner_refuted"], "note": "False: the tokenizer cuts at no-break spaces and drops them; U+2011 is a hyphen like the others; the line is cut after an opening quote though a no-break space follows; American patterns cut before a word joiner. Proved, for any set of runes that are no marks and no hyphens, inside tokens, when none follows a mark or a hyphen and the hyphenator cuts next to none of them (or words are not broken)."},
 {"property": "C131", "status": "partial", "theorems": ["C131_runes", "C131_text_partial", "C131_feed_refuted"], "note": "False for tokens given directly: a line feed inside a token is kept, at no width. Proved: the runes of the lines come from the tokens, or are spaces or printed hyphens; with the tokens of the Tokenizer no blank but the space is in a line."},
 {"property": "C132", "status": "partial", "theorems": ["C132_parts_partial", "C132_odd_refuted", "C132_zero_width_refuted"], "note": "False when hyphens are not printed: a line cut inside a word must be exactly full (C73), so six characters of two columns each are set on 6 columns and refused on 7. False for zero-width spaces: they are no place where a line may be cut. Proved, with the default tolerance and hyphens printed, for texts without marks and hyphens whose parts take at most 50 columns."},
 {"property": "C133", "status": "partial", "theorems": ["C133_atoms", "C133_exactly_partial", "C133_mark_refuted", "C133_wide_refuted"], "note": "False when a mark comes just after a place where the line can be cut, and for words of more than 51 columns. Proved, with the default tolerance, for widths of at most 51 columns, when hyphens are printed or words not broken, no mark comes after such a place and no part of a word is narrower than the hyphen."},
 {"property": "C134", "status": "partial", "theorems": ["C134_join_partial", "C134_apart_partial", "C134_join_refuted", "C134_wide_refuted"], "note": "False with the same iteration order of the map (3 and 1 lines apart, 5 together), and on wide lines, where two words that are set apart are refused together. Proved for some order, with the conditions of C133."},
 {"property": "C135", "status": "partial", "theorems": ["C135_each_partial", "C135_wide_refuted", "C135_mark_refuted"], "note": "False on wide lines (two words of 60 columns on 118) and when a token starts with a mark, where the order of the words matters. Proved with the conditions of C133."},
 {"property": "C136", "status": "proved", "theorems": ["C136_apart"], "note": "With permissible options (see C44)."},
 {"property": "C137", "status": "proved", "theorems": ["C137_sure", "C137_formatted", "C137_one_refuted"], "note": "With permissible options (see C44); in particular with the same or with another line breaker. C137_formatted: for tokens with escape sequences as in C64, the sequences are the same too, from line breakers in the same state. C137_one_refuted: a tolerance of 1 is too much."},
 {"property": "C138", "status": "proved", "theorems": ["C138_least", "C138_tolerance", "C138_wordbreak", "C138_scale", "C138_beginning", "C138_formatted", "C138_one_refuted", "C138_thin_refuted", "C138_mark_refuted"], "note": "With permissible options (see C44). C138_formatted: with escape sequences as in C64. The conditions on the text are those of C91; C138_mark_refuted, C138_thin_refuted: both are needed. C138_one_refuted: with a tolerance of 1, 3 or 5 lines for the same text, depending on the order."},
 {"property": "C139", "status": "proved", "theorems": ["C139_rest", "C139_words"], "note": "With permissible options (see C44). C125_mark_refuted: with the default tolerance, a rest that starts with a mark is never set as it was."},
 {"property": "C140", "status": "proved", "theorems": ["C140_more", "C140_minima", "C140_some_order", "C140_least", "C140_lines_refuted"], "note": "With permissible options (see C44). C140_lines_refuted: with the default tolerance and some order, more cuts cost a line. WithMinLeft is left out, see C127_left_refuted."}
]}
