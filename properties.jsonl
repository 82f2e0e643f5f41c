{"id": "C01", "title": "FieldsFunc cuts at separators exactly", "statement": "runes.FieldsFunc(in, f) returns, in order, exactly the maximal non-empty runs of runes of `in` on which f is false: no token is empty, no token holds a separator, two consecutive tokens are separated by at least one separator in `in`, and nothing but separators is dropped.", "quantifier": "every rune slice and every predicate f", "why_tests_cant": "infinitely many inputs and predicates; index juggling with a negative sentinel (^start)", "anchors": ["terminal/runes/fields.go:FieldsFunc"]}
{"id": "C02", "title": "Tokenizer keeps every non-blank rune, in order", "statement": "Tokenizer.BreakWord(text) returns non-empty tokens free of Unicode white space whose concatenation is the text with the white space removed; a text of already-tokenized words joined by one blank is split back into those words.", "quantifier": "every rune slice", "why_tests_cant": "unbounded texts", "anchors": ["wordbreak/tokenizer/tokenizer.go:BreakWord", "terminal/runes/fields.go:FieldsFunc"]}
{"id": "C03", "title": "Punctuator splits losslessly and isolates marks", "statement": "Punctuator.BreakWord(w) returns non-empty parts whose concatenation is w; every punctuation rune (other than a hyphen, plus '|') is a part on its own, other parts contain none, and two non-punctuation parts are never adjacent. Hence the result is the only such decomposition.", "quantifier": "every rune slice; every Unicode punctuation table", "why_tests_cant": "unbounded words", "anchors": ["wordbreak/punctuator/punctuator.go:breakAtFunc,BreakWord,IsPunctuation"]}
{"id": "C04", "title": "SplitWord splits losslessly and isolates hyphens", "statement": "hyphenator.SplitWord(w) returns non-empty parts whose concatenation is w; every hyphen rune is a part on its own, other parts contain none, and two non-hyphen parts are never adjacent.", "quantifier": "every rune slice", "why_tests_cant": "unbounded words", "anchors": ["wordbreak/hyphenator/hyphenator.go:SplitWord,IsHyphen"]}
{"id": "C05", "title": "A part is never both a punctuation mark and a hyphen", "statement": "IsPunctuation(p) and IsHyphen(p) are never both true, both are false unless p has exactly one rune, and IsPunctuation accepts a one-rune part exactly when Punctuator.BreakWord would isolate that rune (IsHyphen and SplitWord likewise).", "quantifier": "every rune slice", "why_tests_cant": "ranges over all runes", "anchors": ["wordbreak/punctuator/punctuator.go:IsPunctuation", "wordbreak/hyphenator/hyphenator.go:IsHyphen"]}
{"id": "C06", "title": "Width is total and bounded", "statement": "runes.Width(r) never panics, returns 0 for every invalid rune and for U+FFFD, and returns a value between 0 and 4 for every rune in default mode (between 0 and max(4, ambiguous width) in East-Asian mode with a non-negative ambiguous width).", "quantifier": "every 32-bit rune, every option list", "why_tests_cant": "four billion runes times all options", "anchors": ["terminal/runes/width.go:Width,runeWidth"]}
{"id": "C07", "title": "The packed cache answers like the direct computation", "statement": "Width(r) read from the packed lookup table equals the width computed directly from the Unicode tables, for every rune, in default mode.", "quantifier": "every rune", "why_tests_cant": "2-bit packing may lose or mix neighbouring widths anywhere in 1.1M entries", "anchors": ["terminal/runes/width.go:Width", "terminal/runes/lookup.go:buildLookupTable"]}
{"id": "C08", "title": "Widths is the sum of Width", "statement": "Widths(rs) equals the sum of Width(r) over rs and never panics.", "quantifier": "every rune slice", "why_tests_cant": "unbounded slices, all runes", "anchors": ["terminal/runes/width.go:Widths,StringWidth"]}
{"id": "C09", "title": "Widths is additive", "statement": "Widths(a++b) = Widths(a)+Widths(b) whenever it does not panic, and it panics on a++b exactly when it panics on a or on b; in default mode the panic happens exactly when some rune is negative or above U+10FFFF. StringWidth never panics.", "quantifier": "every pair of rune slices, every option list", "why_tests_cant": "unbounded", "anchors": ["terminal/runes/width.go:Widths,StringWidth"]}
{"id": "C10", "title": "East-Asian mode only changes ambiguous runes", "statement": "Without the emoji option, Width(r, EastAsian) differs from Width(r) only if IsAmbiguous(r); an ambiguous rune of default width 1 is reported with exactly the configured ambiguous width (2 by default).", "quantifier": "every rune, every ambiguous width", "why_tests_cant": "all runes", "anchors": ["terminal/runes/width.go:runeWidth", "terminal/runes/options.go"]}
{"id": "C11", "title": "The emoji option only takes effect on neutral emojis in East-Asian mode", "statement": "SkipStrictEmojiNeutral changes nothing unless EastAsian is set; when set it only turns the width of emoji runes that are neither ambiguous, narrow, wide nor zero-width from 1 to 2.", "quantifier": "every rune, every ambiguous width", "why_tests_cant": "all runes", "anchors": ["terminal/runes/width.go:runeWidth"]}
{"id": "C12", "title": "Table lookup is exact membership", "statement": "IsAmbiguous(r) is true exactly when r lies in one of the published intervals: binary search answers membership for every shipped table, and each shipped table is sorted and non-overlapping.", "quantifier": "every rune; every sorted table", "why_tests_cant": "all runes and all tables", "anchors": ["terminal/runes/lookup.go:inTable,inTables", "terminal/runes/runes_tables.go"]}
{"id": "C13", "title": "The width cache is built once and safely", "statement": "Whatever the interleaving of concurrent Width/Widths calls, the table is built at most once, no call reads it before it is complete, and every call returns the same width it would return alone.", "quantifier": "every schedule of any number of goroutines", "why_tests_cant": "schedules cannot be enumerated by tests", "anchors": ["terminal/runes/width.go:Width", "terminal/runes/lookup.go:initLookupTable"]}
{"id": "C14", "title": "WriteRunes emits the UTF-8 of its runes", "statement": "Writer.WriteRunes(rs) performs one Write of exactly the UTF-8 encodings of rs in order (invalid runes as U+FFFD), the same bytes as writing the runes one by one with WriteRune, and reports that many bytes.", "quantifier": "every rune slice, including invalid runes", "why_tests_cant": "unbounded slices and all runes", "anchors": ["terminal/runes/runesio/writer.go"]}
{"id": "C15", "title": "UTF-8 round trip", "statement": "Decoding as Go does ([]rune(s)) the bytes written by WriteRunes(rs) gives rs back with invalid runes replaced by U+FFFD; decoding any byte string yields only valid runes, and re-encoding a valid UTF-8 string gives it back.", "quantifier": "every rune slice, every byte string", "why_tests_cant": "unbounded", "anchors": ["terminal/runes/runesio/writer.go", "terminal/runes/width.go:StringWidth", "linebreak/linebreaker.go:leftAlignedNodes"]}
{"id": "C16", "title": "SliceReader is a cursor over an immutable rune slice", "statement": "Any sequence of ReadRune, Seek, Runes, Slice, Slices and SliceFromByteOffsets calls behaves like a cursor that stays between 0 and the length: reads return successive runes then io.EOF, Runes returns the unread suffix, slicing calls never move the cursor and nothing changes the runes.", "quantifier": "every rune slice, every operation sequence", "why_tests_cant": "all histories", "anchors": ["terminal/runes/runesio/slice_reader.go"]}
{"id": "C17", "title": "A failed Seek changes nothing, and wrap-around never fakes success", "statement": "With whence start, current or end, Seek succeeds exactly when the mathematically exact target lies in [0,len], returns that target and moves there; otherwise it returns ErrSeekOutOfRange and the reader is unchanged, even when the 64-bit sum overflows. With any other whence it moves nothing and returns the current position.", "quantifier": "every reader state, every int64 offset, every whence", "why_tests_cant": "2^64 offsets", "anchors": ["terminal/runes/runesio/slice_reader.go:Seek"]}
{"id": "C18", "title": "SliceFromByteOffsets selects the runes inside the byte range", "statement": "For byte offsets falling on rune boundaries in order, each returned slice is exactly the runes encoded by those bytes; more generally, the runes lying entirely inside the byte range.", "quantifier": "every slice of valid runes, every list of offset pairs", "why_tests_cant": "unbounded", "anchors": ["terminal/runes/runesio/slice_reader.go:SliceFromByteOffsets"]}
{"id": "C19", "title": "Slices cuts exactly at the given pairs, sharing the memory of the reader", "statement": "Slices(offsets) panics exactly when the number of offsets is odd or some pair is not 0<=a<=b<=capacity; otherwise it returns runes[a:b] for each pair, in order. The slices returned by Slices, Slice, Runes and SliceFromByteOffsets are views of the array of the reader whose capacity goes to the end of that array, so appending to one writes over the text that follows it.", "quantifier": "every slice and list of offsets", "why_tests_cant": "unbounded", "anchors": ["terminal/runes/runesio/slice_reader.go:Slices,Slice,Runes,SliceFromByteOffsets"]}
{"id": "C20", "title": "StripToken terminates and loses no rune", "statement": "ansi.StripToken(token) always returns, and concatenating StartSequence, Text and StopSequence of the returned parts in order gives the token back.", "quantifier": "every rune slice (any backing capacity), every Unicode digit table", "why_tests_cant": "unbounded inputs; parser with rewinds", "anchors": ["terminal/ansi/ansi.go:StripToken,StripANSIFromRunes"]}
{"id": "C21", "title": "StripToken never panics nor reads past its input", "statement": "StripToken does not panic and never returns runes located beyond the length of its argument.", "quantifier": "every rune slice and backing capacity", "why_tests_cant": "needs adversarial truncated inputs at every offset", "anchors": ["terminal/ansi/ansi.go:decodeANSISequence"]}
{"id": "C22", "title": "StripToken leaves its argument untouched", "statement": "The backing array of the token is unchanged after StripToken, although the code appends in place to a sub-slice of it.", "quantifier": "every rune slice and backing capacity", "why_tests_cant": "aliasing depends on capacity and contents", "anchors": ["terminal/ansi/ansi.go:StripANSIFromRunes"]}
{"id": "C23", "title": "Standard SGR sequences are classified as start or stop", "statement": "A sequence ESC[p1;...;pn m with parameters of up to three digits is recognised as a whole; it is a stop when its first parameter is empty or all zeros and a start otherwise. ESC[..s / ESC[..h are starts, ESC[..u / ESC[..l are stops.", "quantifier": "every parameter list, every following text", "why_tests_cant": "unbounded number of parameters", "anchors": ["terminal/ansi/ansi.go:decodeANSISequence"]}
{"id": "C24", "title": "Extracted text holds no start or stop sequence", "statement": "Each part's Text holds no 'ESC[' introducer except those of sequences that are neither start nor stop (or an ESC swallowed right after another ESC); StartSequence and StopSequence are empty or a single sequence beginning with 'ESC['.", "quantifier": "every rune slice", "why_tests_cant": "unbounded", "anchors": ["terminal/ansi/ansi.go:decodeText,StripANSIFromRunes"]}
{"id": "C25", "title": "Text without escapes goes through untouched", "statement": "If the token contains no 'ESC[' then StripToken returns exactly one part whose Text is the token and whose sequences are empty.", "quantifier": "every rune slice without ESC[", "why_tests_cant": "unbounded", "anchors": ["terminal/ansi/ansi.go:StripToken"]}
{"id": "C26", "title": "Nesting levels count open sequences", "statement": "After pushing renderers r1..rn in order into a State, the level of rk is the number of start sequences among r1..rk minus the number of stop sequences among r1..r(k-1).", "quantifier": "every list of renderers", "why_tests_cant": "unbounded histories", "anchors": ["attributes/state.go:Push"]}
{"id": "C27", "title": "The iterator visits every renderer once, in order", "statement": "for it := s.Iterator(); it.Next(); visits each pushed non-nil renderer exactly once in push order, then Next stays false; First() starts at the first item without a Next.", "quantifier": "every list of renderers", "why_tests_cant": "unbounded", "anchors": ["attributes/state.go:Iterator,First,Next,Item"]}
{"id": "C28", "title": "A line break closes and reopens the context", "statement": "If the renderers form non-nested start/stop contexts, breaking the line after any renderer with EndOfLine then StartOfLine leaves the terminal in the initial state at the end of the line and re-establishes, at the start of the next line, exactly the attributes that were active.", "quantifier": "every flat renderer list and every break point", "why_tests_cant": "every position in every list", "anchors": ["attributes/state.go:EndOfLine,StartOfLine"]}
{"id": "C29", "title": "Unattributed text gets no control sequence", "statement": "If no renderer has a start or stop sequence then EndOfLine and StartOfLine write nothing wherever the line is broken.", "quantifier": "every list of plain renderers, every position", "why_tests_cant": "unbounded", "anchors": ["attributes/state.go:EndOfLine,StartOfLine"]}
{"id": "C30", "title": "The trie is a finite map", "statement": "Any sequence of Put (non-nil values), Get and Delete on a RuneTrie answers like a finite map from rune slices to values: Get returns the last value put and not deleted since; Put returns true exactly when the key had no value.", "quantifier": "every operation sequence, every key set", "why_tests_cant": "all histories", "anchors": ["wordbreak/hyphenator/internal/trie/rune_trie.go"]}
{"id": "C31", "title": "Delete reports existence and reclaims dead branches", "statement": "Delete(k) returns true exactly when some stored key has k as a prefix (any k==\"\" included); after any history the trie holds no dead branch: its shape depends only on the keys currently stored.", "quantifier": "every operation sequence", "why_tests_cant": "all histories", "anchors": ["wordbreak/hyphenator/internal/trie/rune_trie.go:Delete"]}
{"id": "C32", "title": "Pattern lines decode as documented", "statement": "For a pattern with at most one digit before each letter and at most one trailing digit, reading it stores under its letters (lower-cased) the list of inter-letter digits, 0 where absent: 'a5ban' => aban:[0,5,0,0].", "quantifier": "every well-formed pattern", "why_tests_cant": "unbounded patterns", "anchors": ["wordbreak/hyphenator/dictionary.go:readPattern"]}
{"id": "C33", "title": "Exception lines decode as documented", "statement": "For an exception word with single hyphens between letters, the stored key is the word without hyphens and the stored mask has one entry per letter, 1 exactly before the letters that follow a hyphen.", "quantifier": "every well-formed exception line", "why_tests_cant": "unbounded", "anchors": ["wordbreak/hyphenator/dictionary.go:readException"]}
{"id": "C34", "title": "Loaded dictionaries hold exactly the file's rules", "statement": "After LoadPatterns, looking up a key yields the positions of the last pattern of the file with that key, and nothing when there is none; same for exceptions.", "quantifier": "every pattern file content, every key", "why_tests_cant": "unbounded files", "anchors": ["wordbreak/hyphenator/dictionary.go:LoadPatterns"]}
{"id": "C35", "title": "The dictionary cache is shared and consistent", "statement": "Under any interleaving of hyphenator.New calls, each pattern file is loaded at most once, and all hyphenators of a language share the same dictionary.", "quantifier": "every schedule of any number of goroutines", "why_tests_cant": "schedules", "anchors": ["wordbreak/hyphenator/cache.go:loadDictFromCache"]}
{"id": "C36", "title": "BreakWord never loses or alters text", "statement": "Hyphenator.BreakWord(w) returns at least one part and the parts concatenate to w.", "quantifier": "every word, dictionary and option values with minRight>=0", "why_tests_cant": "unbounded words and dictionaries", "anchors": ["wordbreak/hyphenator/hyphenator.go:BreakWord,splitAtPositions"]}
{"id": "C37", "title": "Hyphenation respects the left and right minima", "statement": "Whenever BreakWord returns several parts, every part but the last has at least max(1,minLeft) runes and every break leaves at least minRight runes to its right; in particular with the defaults no part is empty or a single rune.", "quantifier": "every word, dictionary and minima", "why_tests_cant": "unbounded", "anchors": ["wordbreak/hyphenator/hyphenator.go:splitAtPositions"]}
{"id": "C38", "title": "Short and already-hyphenated words are left whole", "statement": "If the word holds a hyphen or is shorter than minLength then BreakWord returns the word as its only part.", "quantifier": "every word and dictionary", "why_tests_cant": "unbounded", "anchors": ["wordbreak/hyphenator/hyphenator.go:BreakWord"]}
{"id": "C39", "title": "BreakWord implements Liang's algorithm", "statement": "For a word that is not an exception, BreakWord breaks exactly at the positions (subject to the minima, scanned left to right) where the greatest digit among all patterns matching the dotted word at that place is odd.", "quantifier": "every word, every dictionary", "why_tests_cant": "unbounded words and pattern sets", "anchors": ["wordbreak/hyphenator/hyphenator.go:BreakWord,isPattern,mergeBreakPoints"]}
{"id": "C40", "title": "Exceptions override patterns", "statement": "If the word is listed as an exception then BreakWord breaks exactly at the listed hyphens (subject to the minima), whatever the patterns say.", "quantifier": "every dictionary and exception word", "why_tests_cant": "unbounded", "anchors": ["wordbreak/hyphenator/hyphenator.go:isException,BreakWord"]}
{"id": "C41", "title": "Hyphenation ignores letter case", "statement": "BreakWord breaks a word at the same positions whatever the case of its letters.", "quantifier": "every word and dictionary", "why_tests_cant": "unbounded", "anchors": ["wordbreak/hyphenator/hyphenator.go:isPattern,isException"]}
{"id": "C42", "title": "BreakWord never panics", "statement": "BreakWord returns normally.", "quantifier": "every word, every dictionary made of well-formed or ill-formed lines, every option values", "why_tests_cant": "unbounded; index arithmetic on grown slices", "anchors": ["wordbreak/hyphenator/hyphenator.go"]}
{"id": "C43", "title": "The shipped pattern files are well formed", "statement": "Every pattern of the embedded files has at most one digit between letters, no upper case letter, and no duplicate key; every exception line has single hyphens strictly between letters.", "quantifier": "every line of the embedded pattern files", "why_tests_cant": "46,000 lines; the claim is about the data itself", "anchors": ["wordbreak/hyphenator/languages/*.tex"]}
{"id": "C44", "title": "LeftAlignUniform only re-flows the text", "statement": "When LeftAlignUniform succeeds on plain non-empty tokens, the lines are the tokens joined by single spaces, cut into consecutive segments: at each cut either one space is dropped, or nothing is dropped (inside a token), possibly with one '-' appended. No rune is lost, duplicated or moved.", "quantifier": "every token list, width, option set with integral scale and a hyphen penalty that is not that of another kind of break, hyphenator, punctuator and every map iteration order", "why_tests_cant": "unbounded paragraphs and nondeterminism", "anchors": ["linebreak/linebreaker.go:LeftAlignUniform,render", "linebreak/knuth_plass.go"]}
{"id": "C45", "title": "No line exceeds the requested width", "statement": "When LeftAlignUniform succeeds, every line's measured width is at most the (rounded) maximal width.", "quantifier": "every token list, width, tolerance, penalties, hyphenator, map order", "why_tests_cant": "unbounded", "anchors": ["linebreak/knuth_plass.go:adjustmentRatio,mainLoop", "linebreak/linebreaker.go:render"]}
{"id": "C46", "title": "Chosen breaks are all feasible", "statement": "Every line of a successful result ends at a legal break point and its adjustment ratio lies between -1 and the tolerance.", "quantifier": "every list of plain non-empty tokens, every tolerance below 10000, every map order", "why_tests_cant": "unbounded", "anchors": ["linebreak/knuth_plass.go:mainLoop"]}
{"id": "C47", "title": "ErrCannotBeSet means that no feasible breaking exists", "statement": "LeftAlignUniform returns ErrCannotBeSet exactly when no sequence of legal break points makes every line feasible within the tolerance.", "quantifier": "every list of plain non-empty tokens, width, tolerance below 10000, hyphen penalty of at least 0, every map order", "why_tests_cant": "needs all breakings of all paragraphs", "anchors": ["linebreak/knuth_plass.go:breakPoints,mainLoop"]}
{"id": "C48", "title": "LeftAlignUniform is deterministic", "statement": "Two calls with the same tokens, width and options return the same lines.", "quantifier": "every input, every map iteration order", "why_tests_cant": "map iteration order is random per run; a test sees one order", "anchors": ["linebreak/knuth_plass.go:insertNewActiveBreak"]}
{"id": "C49", "title": "The breaking minimises total demerits", "statement": "The lines returned have the least total demerits (Knuth-Plass) among all feasible breakings.", "quantifier": "every paragraph", "why_tests_cant": "exponentially many breakings", "anchors": ["linebreak/knuth_plass.go:mainLoop,insertNewActiveBreak,findBestBreak"]}
{"id": "C50", "title": "A paragraph that fits on one line is one line", "statement": "If the tokens joined by single spaces measure at most the width, the result is that single line.", "quantifier": "every plain token list and width", "why_tests_cant": "unbounded", "anchors": ["linebreak/linebreaker.go:LeftAlignUniform", "linebreak/knuth_plass.go:findBestBreak"]}
{"id": "C51", "title": "LeftAlignUniform never panics and never emits an empty line", "statement": "For non-empty plain tokens LeftAlignUniform does not panic and every returned line holds some text.", "quantifier": "every token list, width, tolerance, penalties, hyphenator returning at least one part, every map order", "why_tests_cant": "slice bounds depend on the selected breaks", "anchors": ["linebreak/linebreaker.go:render,skipNodes", "linebreak/knuth_plass.go"]}
{"id": "C52", "title": "Hyphens are rendered exactly at soft-hyphen breaks", "statement": "With hyphen rendering on, a line ends with an added '-' exactly when it is cut at a hyphenation point proposed by the hyphenator; explicit hyphens are never doubled and spaces never become hyphens.", "quantifier": "every input, width and hyphen penalty", "why_tests_cant": "unbounded", "anchors": ["linebreak/linebreaker.go:render,pushHyphen"]}
{"id": "C53", "title": "A word wider than the line is reported", "statement": "If some unbreakable part measures more than the width, LeftAlignUniform returns ErrCannotBeSet.", "quantifier": "every input, width, tolerance", "why_tests_cant": "unbounded", "anchors": ["linebreak/knuth_plass.go:adjustmentRatio"]}
{"id": "C54", "title": "A LineBreaker can be reused", "statement": "The result of LeftAlignUniform does not depend on the calls made before on the same LineBreaker.", "quantifier": "every history of calls", "why_tests_cant": "all histories", "anchors": ["linebreak/linebreaker.go:New,render", "attributes/state.go"]}
{"id": "C55", "title": "Words are not split when word breaking is off", "statement": "With WithWordBreak(false), lines are only cut at spaces or after a punctuation mark, and no '-' is added.", "quantifier": "every input", "why_tests_cant": "unbounded", "anchors": ["linebreak/linebreaker.go:boxNodes"]}
{"id": "C56", "title": "Escape sequences survive re-flowing", "statement": "Every start and stop sequence of the input tokens appears in the output, next to the same text.", "quantifier": "every token list with ANSI sequences", "why_tests_cant": "unbounded", "anchors": ["linebreak/linebreaker.go:boxNodes", "linebreak/knuth_plass_types.go:tokenState"]}
{"id": "C57", "title": "Cuts fall only where word breakers allow", "statement": "Inside a token, lines are cut only right after a punctuation mark, right after an explicit hyphen, or between two parts returned by the hyphenator.", "quantifier": "every list of plain non-empty tokens, width, map order, hyphenator and punctuator that cut words in non-empty parts", "why_tests_cant": "unbounded", "anchors": ["linebreak/linebreaker.go:boxNodes", "linebreak/knuth_plass.go:breakPoints"]}
{"id": "C58", "title": "No leading or trailing blanks", "statement": "No line of the result starts or ends with an inter-word space, and two words on the same line are separated by exactly one space.", "quantifier": "every plain token list, every integral scale factor >= 1", "why_tests_cant": "unbounded", "anchors": ["linebreak/linebreaker.go:render,scale,downScale"]}
{"id": "C59", "title": "Scaling does not change the spacing", "statement": "A space of measured width 1 is rendered as exactly one space whatever the scale factor.", "quantifier": "every scale factor", "why_tests_cant": "all reals", "anchors": ["linebreak/linebreaker.go:scale,downScale"]}
{"id": "C60", "title": "Every language has an embedded, usable dictionary", "statement": "For every language constant of the hyphenator package the pattern file it names is embedded in the binary and loading it yields the (non-empty, distinct) patterns of the file.", "quantifier": "every language, every Unicode table that lower-cases the accented letters of the files to themselves", "why_tests_cant": "tests load a few languages and look at a few words; 45681 patterns are compared here with the dictionary built", "anchors": ["wordbreak/hyphenator/languages.go", "wordbreak/hyphenator/embedded.go", "wordbreak/hyphenator/dictionary.go"]}
{"id": "C61", "title": "Default hyphenation follows the shipped patterns", "statement": "With the default options, a word of 4 to 29 letters that is not an exception is broken exactly where the greatest digit among the matching patterns of the shipped file of the language is odd, at least 2 runes from both ends and from the previous break.", "quantifier": "every language, every word of 4 to 29 runes without a hyphen", "why_tests_cant": "unbounded words against thousands of patterns", "anchors": ["wordbreak/hyphenator/hyphenator.go:BreakWord", "wordbreak/hyphenator/dictionary.go"]}
{"id": "C62", "title": "The last line is as long as possible", "statement": "Among all feasible breakings of a paragraph, LeftAlignUniform returns one whose last line holds the most fragments.", "quantifier": "every plain token list, width up to 4997, every map order", "why_tests_cant": "needs all breakings of all paragraphs", "anchors": ["linebreak/knuth_plass.go:mainLoop,findBestBreak"]}
{"id": "C63", "title": "New works with any permissible options", "statement": "New does not panic with permissible options in any number and order, and the line breaker it returns satisfies the hypotheses of C44-C58.", "quantifier": "every list of permissible options", "why_tests_cant": "unbounded lists of options", "anchors": ["linebreak/linebreaker.go:New", "linebreak/options.go"]}
{"id": "C64", "title": "Formatting does not change the layout", "statement": "If tokens are made of runs of text, each with or without a start sequence before it and a stop sequence after it, the runs beginning and ending where the punctuator cuts, LeftAlignUniform returns the lines it returns for the bare texts with some of the sequences of the tokens inserted: same outcome (lines, error or panic), same number of lines, same visible text on each line. Start and stop sequences need not match.", "quantifier": "every such token list, every width, every option list, every history of plain calls, every map order", "why_tests_cant": "relates two unbounded runs", "anchors": ["linebreak/linebreaker.go:LeftAlignUniform,boxNodes,render"]}
{"id": "C65", "title": "Exact lines of formatted tokens", "statement": "The first call of LeftAlignUniform on tokens made of plain passages and of passages between a start and a stop sequence, each in one or several tokens, returns a feasible layout of the fragments of the texts with the longest last line, where each passage is written between its start and its stop sequence; a passage split over two lines is closed at the end of the line, together with the formatted passages next to it, and reopened on the next line together with those before it; the first passage, if it has several fragments, is opened twice.", "quantifier": "every such token list, every width and permissible option list, every map order", "why_tests_cant": "unbounded token lists and layouts", "anchors": ["linebreak/linebreaker.go:LeftAlignUniform,boxNodes,render", "attributes/state.go:StartOfLine,EndOfLine"]}
{"id": "C66", "title": "Formatted lines on a terminal", "statement": "On a terminal, each line returned by the first call of LeftAlignUniform on tokens made of plain and formatted passages, each in one or several tokens, stands alone: shown from a state with no formatting it ends with none; every rune of a formatted passage, including the spaces inside and a hyphen added at the end of the line, appears with the formatting of its passage and at most that of the formatted passages directly before it; plain passages and the spaces between passages appear with none.", "quantifier": "every such token list, every width and permissible option list, every map order", "why_tests_cant": "unbounded token lists and layouts; needs a model of a terminal", "anchors": ["linebreak/linebreaker.go:LeftAlignUniform,render", "attributes/state.go:StartOfLine,EndOfLine"]}
{"id": "C67", "title": "Exact width of every rune", "statement": "Width(r, opts) is 0 exactly for invalid runes, U+FFFD, non-printable and combining runes; 3 and 4 for the two-em and three-em dashes; otherwise 1 for narrow runes, 2 for wide runes, and 1 for the others, except in East-Asian mode where ambiguous runes take the configured width and, with the emoji option, emojis take 2. Each option takes the value of its last occurrence in opts, or its default.", "quantifier": "every rune, every option list", "why_tests_cant": "2^32 runes times unbounded option lists, against the published tables", "anchors": ["terminal/runes/width.go:Width,runeWidth", "terminal/runes/options.go:optionsWithDefaults"]}
{"id": "C68", "title": "Stripping keeps every word", "statement": "The tool that prepares pattern files (strip_comments.go) writes, for each line that is neither empty nor a comment, exactly the part of the line before its first percent sign, without surrounding white space; no percent sign is left, and the words outside comments are kept, all of them and in order.", "quantifier": "every file in valid UTF-8", "why_tests_cant": "unbounded files; the regular expression matches lazily and its group must take one rune", "anchors": ["wordbreak/hyphenator/languages/strip_comments.go:strip,isTeXComment,texComment"]}
{"id": "C69", "title": "Dictionaries hold exactly what TeX would read", "statement": "For every language, the embedded file is what the stripping tool makes of its TeX file, and the dictionary loaded from it holds exactly the rules of the words in the \\patterns group of that TeX file, and the exceptions of its \\hyphenation group.", "quantifier": "every language, every key", "why_tests_cant": "40000 patterns, every key of unbounded length: tests probe a few words", "anchors": ["wordbreak/hyphenator/languages/tex", "wordbreak/hyphenator/dictionary.go:LoadPatterns", "wordbreak/hyphenator/languages.go:langToPattern"]}
{"id": "C70", "title": "Generated width tables are faithful", "statement": "From property lines in increasing order, the table generator writes, for each width class, a table of separated intervals in increasing order that holds exactly the runes of the lines of that class; the wide, ambiguous, narrow and neutral tables never share a rune.", "quantifier": "every property file with lines in increasing order; for the merging step, every list of non-empty ranges in any order", "why_tests_cant": "the generator is run once, by hand, on a file that changes with each Unicode version; it merges ranges in place while iterating", "anchors": ["terminal/runes/build_tables.go:shapeup,eastasian,emoji"]}
{"id": "C71", "title": "Shipped width tables are canonical and exclusive", "statement": "The shipped combining, doublewidth, ambiguous, narrow, neutral and emoji tables have no adjacent or overlapping intervals, so each is the only output the generator can give for its runes, however the source lists them; no rune is in two of the wide, ambiguous, narrow and neutral tables.", "quantifier": "every rune; every listing of the runes of a table", "why_tests_cant": "all pairs of tables over the whole rune space, and every way to cut them in ranges", "anchors": ["terminal/runes/runes_tables.go", "terminal/runes/build_tables.go:shapeup"]}
{"id": "C72", "title": "Text made of ordinary words can always be set", "statement": "With the default tolerance, LeftAlignUniform succeeds whenever every token fits in the width.", "quantifier": "every token list, width, map order, options with the default tolerance", "why_tests_cant": "unbounded texts and widths; depends on the existence of a feasible breaking", "anchors": ["linebreak/knuth_plass.go:mainLoop,adjustmentRatio", "linebreak/linebreaker.go:LeftAlignUniform"]}
{"id": "C73", "title": "Lines are reasonably filled", "statement": "With the default tolerance, every line but the last is at most 51 columns short of the width; a line (neither the first nor the last) that starts with a punctuation mark, and a line that ends inside a word without a rendered hyphen, is exactly full.", "quantifier": "every token list, width, map order, options with the default tolerance", "why_tests_cant": "unbounded texts and widths", "anchors": ["linebreak/knuth_plass.go:adjustmentRatio,mainLoop", "linebreak/options.go:WithTolerance"]}
{"id": "C74", "title": "An opening mark stays with its word", "statement": "A punctuation mark or hyphen that starts a token is on the same line as what follows it.", "quantifier": "every token list and width", "why_tests_cant": "depends on which breaks the search selects", "anchors": ["linebreak/linebreaker.go:boxNodes"]}
{"id": "C75", "title": "Strings are kept byte for byte", "statement": "On tokens in UTF-8, the lines are in UTF-8 and their bytes are those of the tokens joined by one space, cut at some places, where a space is dropped, a '-' is added, or nothing changes; an error is returned exactly when the runes cannot be set. Whatever the bytes of the tokens (those that are not UTF-8 are replaced by U+FFFD), the lines are UTF-8: no cut falls inside a multi-byte character.", "quantifier": "every list of byte strings without escape sequences, every width and options", "why_tests_cant": "unbounded texts over all of Unicode", "anchors": ["linebreak/linebreaker.go:LeftAlignUniform,render", "terminal/runes/runesio/writer.go"]}
{"id": "C76", "title": "From text to lines, no visible character is lost", "statement": "Splitting a UTF-8 text with Tokenizer.BreakWordString and passing the tokens to LeftAlignUniform gives lines that are the words of the text, in order, separated by single spaces and line ends; without rendered hyphens the non-blank characters of the lines are exactly those of the text.", "quantifier": "every UTF-8 text (any Unicode white space) without escape sequences", "why_tests_cant": "unbounded texts", "anchors": ["wordbreak/tokenizer/tokenizer.go", "linebreak/linebreaker.go:LeftAlignUniform"]}
{"id": "C77", "title": "Lines are cut in words only where the dictionary says", "statement": "With the default hyphenator (or that of any shipped language, with its default options), whenever a line ends inside a word of a token, at least 2 letters of the word are before the cut and 2 after it, and the cut is where the exception list cuts the word or, for a word that is not listed and has at most 29 letters, where the greatest digit of the matching patterns of the shipped file is odd.", "quantifier": "every token list, width, map order and options that set no other hyphenator", "why_tests_cant": "relates the search, the fragments and the whole dictionary on unbounded texts", "anchors": ["linebreak/linebreaker.go:New,boxNodes", "wordbreak/hyphenator/hyphenator.go:BreakWord"]}
{"id": "C78", "title": "Any tokens can be given", "statement": "LeftAlignUniform never panics, whatever the tokens: empty, made of escape sequences only, with formatting that is never closed or closed several times. When it returns lines, removing the formatting sequences from them leaves lines within the width, and the characters of these lines are those of the text of the tokens, in order, to which only spaces (and hyphens, if rendered) are added. Every sequence in the lines was in a token of this call or of an earlier one.", "quantifier": "every list of tokens, width, map order, options and earlier calls", "why_tests_cant": "unbounded tokens with arbitrary nesting of sequences; the panics need rare combinations of empty tokens and widths", "anchors": ["linebreak/linebreaker.go:LeftAlignUniform,render", "linebreak/knuth_plass.go", "attributes/state.go", "terminal/ansi"]}
{"id": "C79", "title": "There are no lines of width zero or less", "statement": "Given a negative width, or a zero width and some text, LeftAlignUniform returns no lines: it does not panic, loop or return lines that are too long. The line breaker can still be used afterwards.", "quantifier": "every list of tokens, width of -1 or less (float64, -Inf included) or zero, map order, scale factor, options and earlier calls", "why_tests_cant": "unbounded tokens, options and widths; ratios of widths change sign and the search goes through other branches", "anchors": ["linebreak/linebreaker.go:LeftAlignUniform", "linebreak/knuth_plass.go:adjustmentRatio,mainLoop"]}
{"id": "C80", "title": "The work is quadratic", "statement": "LeftAlignUniform looks at a number of candidate lines at most quadratic in the length of the text, whatever the width, the options and the earlier calls: with n = 5 * runes + 3 * tokens, at most 2n²+n. It is not linear: when k lines are returned, at least k(k+1)/2 candidates were looked at.", "quantifier": "every list of tokens, width, map order, options and earlier calls", "why_tests_cant": "a benchmark samples a few inputs and sizes; the bound must hold for every text, every choice of word cuts and every order of the map of candidates", "anchors": ["linebreak/knuth_plass.go:breakPoints,mainLoop,insertNewActiveBreak", "linebreak/linebreaker.go:LeftAlignUniform"]}
{"id": "C81", "title": "The table generator reads the Unicode files and prints tables faithfully", "statement": "For every file in the format of EastAsianWidth.txt 15.0 (comments, blank lines, lines `code;class` or `lo..hi;class`, optionally followed by a space and any text), with entries in increasing order, the generator's tables hold exactly the code points that the file gives: wide or full-width, ambiguous, narrow, neutral by class, combining by the word COMBINING in the line. For emoji-data.txt they hold the code points of the lines with Extended_Pictographic whose range ends at U+00FF or above. The Go source printed for a table lists its ranges, in order, and nothing else.", "quantifier": "every file in that format, every rune, every table", "why_tests_cant": "the generator has no tests and is run once on files that are not in the repository; a scanf format that stops matching drops lines silently", "anchors": ["terminal/runes/build_tables.go:eastasian,emoji,generate,shapeup"]}
{"id": "C82", "title": "The shipped tables file is the generator's output", "statement": "runes_tables.go is, byte for byte, the source that build_tables.go prints for the tables it contains, except for one blank line removed by gofmt. Running the generator on any files in the Unicode format that give every rune the same classes prints the same source.", "quantifier": "every byte of the shipped file; every input of the generator with the same classes", "why_tests_cant": "a hand edit of a generated file of 450 lines is invisible to tests of a few characters", "anchors": ["terminal/runes/runes_tables.go", "terminal/runes/build_tables.go"]}
{"id": "C83", "title": "More tolerance never makes a text impossible to set", "statement": "If LeftAlignUniform sets a paragraph with WithTolerance(t1), it sets it with WithTolerance(t2) for every t2 of at least t1 (below 10000), the other options, the tokens and the width being the same, whatever either line breaker was used for before and in whatever order maps are iterated.", "quantifier": "every paragraph, width, pair of tolerances and other options; every history of both line breakers; every map iteration order", "why_tests_cant": "compares two runs of a search whose pruning depends on the tolerance, for every input", "anchors": ["linebreak/linebreaker.go:LeftAlignUniform", "linebreak/knuth_plass.go:breakPoints,adjustmentRatio", "linebreak/options.go"]}
{"id": "C84", "title": "Breaking words never makes a text impossible to set", "statement": "If LeftAlignUniform sets a paragraph with WithWordBreak(false), it sets it with WithWordBreak(true).", "quantifier": "every paragraph, width and other options; every history and map iteration order", "why_tests_cant": "compares two runs of the search on different lists of nodes, for every hyphenator and input", "anchors": ["linebreak/linebreaker.go:LeftAlignUniform", "linebreak/knuth_plass.go:breakPoints,adjustmentRatio", "linebreak/options.go"]}
{"id": "C85", "title": "A greater width never makes a text impossible to set", "statement": "If LeftAlignUniform sets a paragraph on some width, it sets it on every greater width.", "quantifier": "every paragraph, pair of widths and options; every history and map iteration order", "why_tests_cant": "compares runs at every pair of widths; the failures only show at unusual combinations of widths and word lengths", "anchors": ["linebreak/linebreaker.go:LeftAlignUniform", "linebreak/knuth_plass.go:breakPoints,adjustmentRatio", "linebreak/options.go"]}
{"id": "C86", "title": "Printing hyphens or not never decides whether a text can be set", "statement": "If LeftAlignUniform sets a paragraph with WithRenderHyphens(true), it sets it with WithRenderHyphens(false), where hyphenated lines are narrower.", "quantifier": "every paragraph, width and other options; every history and map iteration order", "why_tests_cant": "compares two runs of the search on different lists of nodes, for every input", "anchors": ["linebreak/linebreaker.go:LeftAlignUniform", "linebreak/knuth_plass.go:breakPoints,adjustmentRatio", "linebreak/options.go"]}
{"id": "C87", "title": "Exactly which layouts LeftAlignUniform can return", "statement": "Over the iteration orders of the map of candidates, LeftAlignUniform returns exactly the greedy layouts: those where each line is, among the lines within tolerance that end at the same place and start where a line can start, the longest of its class of tightness (an exactly full line cut at a blank after a word supersedes the others). Tokens with formatting have the layouts of their texts, with some of their sequences inserted.", "quantifier": "every paragraph of plain tokens, or of formatted tokens as in C64, width, options and history; every map iteration order", "why_tests_cant": "characterises the whole set of results for every text and every iteration order, in both directions", "anchors": ["linebreak/linebreaker.go:LeftAlignUniform", "linebreak/knuth_plass.go:breakPoints,mainLoop,findBestBreak", "linebreak/options.go"]}
{"id": "C88", "title": "A high hyphen penalty avoids hyphens", "statement": "If a text can be set without hyphenating words, a hyphen penalty that is high enough makes LeftAlignUniform set it without hyphenating words.", "quantifier": "every paragraph of plain tokens, width, options and history; every map iteration order; every penalty", "why_tests_cant": "compares runs for every value of a float64 penalty and every iteration order", "anchors": ["linebreak/linebreaker.go:LeftAlignUniform", "linebreak/knuth_plass.go:breakPoints,mainLoop,findBestBreak", "linebreak/options.go"]}
{"id": "C89", "title": "The hyphen penalty 10000 forbids hyphenation", "statement": "With WithHyphenPenalty(10000) no line gets a hyphen, and every line but the last ends with a mark, a hyphen of the text or the end of a token.", "quantifier": "every paragraph of plain tokens, width, options and history; every map iteration order", "why_tests_cant": "every hyphenator, text, width and iteration order", "anchors": ["linebreak/linebreaker.go:LeftAlignUniform", "linebreak/knuth_plass.go:breakPoints,mainLoop,findBestBreak", "linebreak/options.go"]}
{"id": "C90", "title": "WithLooseness changes the number of lines", "statement": "With a looseness of q, LeftAlignUniform makes q more lines when such a layout is within tolerance.", "quantifier": "every option list and looseness", "why_tests_cant": "every combination of options, text and looseness", "anchors": ["linebreak/linebreaker.go:LeftAlignUniform", "linebreak/knuth_plass.go:breakPoints,mainLoop,findBestBreak", "linebreak/options.go"]}
{"id": "C91", "title": "No more lines than necessary", "statement": "LeftAlignUniform returns a layout with as few lines as any layout within tolerance.", "quantifier": "every paragraph of plain tokens, width, options and history; every map iteration order", "why_tests_cant": "compares the result with all the layouts of the text; depends on the random iteration order of a map", "anchors": ["linebreak/linebreaker.go:LeftAlignUniform", "linebreak/knuth_plass.go:breakPoints,mainLoop,findBestBreak", "linebreak/options.go"]}
{"id": "C92", "title": "The language asked for gets its patterns", "statement": "hyphenator.New with a tag of French, German or Spanish, with or without a region, uses the patterns of that language; New always returns a hyphenator with a dictionary.", "quantifier": "every tag, option list and language matcher that keeps the language of a tag", "why_tests_cant": "ranges over all language tags and over what the language matcher may answer", "anchors": ["wordbreak/hyphenator/hyphenator.go:New", "wordbreak/hyphenator/options.go", "wordbreak/hyphenator/languages.go:langToPattern", "wordbreak/hyphenator/cache.go:loadDictFromCache"]}
{"id": "C93", "title": "The last option of a kind wins", "statement": "hyphenator.New applies, for the language and each minimum, the last option given, and the documented default (en-US, 4, 2, 2) when there is none.", "quantifier": "every list of options", "why_tests_cant": "unbounded lists of options", "anchors": ["wordbreak/hyphenator/hyphenator.go:New", "wordbreak/hyphenator/options.go", "wordbreak/hyphenator/languages.go:langToPattern", "wordbreak/hyphenator/cache.go:loadDictFromCache"]}
{"id": "C94", "title": "SupportedPatterns lists what LoadPatterns accepts", "statement": "SupportedPatterns returns the sorted names of the embedded files, and LoadPatterns succeeds exactly on these names.", "quantifier": "every file name; every directory for the sorting", "why_tests_cant": "every name; tests only load the listed ones", "anchors": ["wordbreak/hyphenator/dictionary.go:SupportedPatterns,LoadPatterns", "wordbreak/hyphenator/embedded.go"]}
{"id": "C95", "title": "The scale factor does not decide whether a text can be set", "statement": "WithScaleFactor only sets the precision of widths: when LeftAlignUniform returns lines with one scale factor, it returns lines with another.", "quantifier": "every text, width, other options, earlier calls, map iteration orders and pair of scale factors", "why_tests_cant": "compares two runs on unbounded inputs", "anchors": ["linebreak/linebreaker.go:LeftAlignUniform", "linebreak/knuth_plass.go:breakPoints,adjustmentRatio", "linebreak/options.go"]}
{"id": "C96", "title": "An excerpt of a text that can be set can be set", "statement": "When LeftAlignUniform returns lines for some tokens, it returns lines for the same tokens without the first or the last ones.", "quantifier": "every text, cut anywhere; every width, options, earlier calls, map iteration orders", "why_tests_cant": "compares runs on unbounded inputs", "anchors": ["linebreak/linebreaker.go:LeftAlignUniform", "linebreak/knuth_plass.go:breakPoints,adjustmentRatio", "linebreak/options.go"]}
{"id": "C97", "title": "The parts of a word can be changed independently", "statement": "Once FieldsFunc, SplitWord, or the BreakWord of the tokenizer, the punctuator or the hyphenator has returned the parts of a word, setting runes of a part, or appending to it, changes no other part.", "quantifier": "every word, stored anywhere in its array; every part; every rune set or appended", "why_tests_cant": "tests compare contents, not the memory shared by the parts; unbounded words", "anchors": ["terminal/runes/fields.go:FieldsFunc", "wordbreak/punctuator/punctuator.go:breakAtFunc", "wordbreak/hyphenator/hyphenator.go:SplitWord,BreakWord,splitAtPositions"]}
{"id": "C98", "title": "Infinite and huge widths, and widths that are no number", "statement": "LeftAlignUniform returns ErrCannotBeSet for every text when maxWidth is +Inf, or any number of 2^53 or more such as math.MaxFloat64: these do not mean lines without limits. When maxWidth is NaN, it returns plain text as a single line, however long, without an error.", "quantifier": "+Inf and huge numbers: every sequence of tokens, escape sequences included; NaN: every plain text; all permissible options, earlier calls, map iteration orders", "why_tests_cant": "all texts and options; every comparison of the search is taken with a special float", "anchors": ["linebreak/linebreaker.go:LeftAlignUniform", "linebreak/knuth_plass.go:breakPoints,mainLoop,adjustmentRatio"]}
{"id": "C99", "title": "A LineBreaker can be shared by goroutines", "statement": "When goroutines call LeftAlignUniform on the same LineBreaker at the same time, each call returns the lines of its own tokens.", "quantifier": "any number of goroutines, line breakers, calls and schedules", "why_tests_cant": "tests run one schedule; results depend on the interleaving", "anchors": ["linebreak/linebreaker.go:LineBreaker,LeftAlignUniform,render", "linebreak/knuth_plass.go:breakPoints"]}
{"id": "C100", "title": "Widths need not be integers", "statement": "LeftAlignUniform takes a float64 and a measurer returns one: for any width and any measurer, no line is wider than asked for, and words stay separated by one space.", "quantifier": "any finite width from 1 to 2^30; any measurer of non-negative widths that gives a space the width 1; any scale factor above 2/3 and up to 1024; any tokens and options", "why_tests_cant": "tests use a few integral widths; roundings of products happen word by word", "anchors": ["linebreak/linebreaker.go:LeftAlignUniform,scale,downScale,buildUniformLengths", "linebreak/options.go:WithMeasurer,WithScaleFactor"]}
{"id": "C101", "title": "Formatting formatted text again", "statement": "Reading the lines of LeftAlignUniform back as a text (joined by newlines, cut into words by the tokenizer) and formatting it again with the same options and width gives the same lines.", "quantifier": "any tokens without blanks and escape sequences, any options with the default punctuator, any width, any iteration order of maps in either call", "why_tests_cant": "the second call works on other words than the first; tests format a text once", "anchors": ["linebreak/linebreaker.go:LeftAlignUniform", "wordbreak/tokenizer/tokenizer.go:BreakWord", "linebreak/knuth_plass.go:breakPoints"]}
{"id": "C102", "title": "Formatting stays within its place", "statement": "When tokens carry start and stop sequences in any order, each line returned by LeftAlignUniform leaves no formatting in force at its end, so that lines can be displayed alone; and the text is shown with the formattings in force where it stands in the input: text after a stop sequence without any, text after several start sequences with all of them.", "quantifier": "any tokens made of runs with or without a start and a stop sequence, any width and permissible options", "why_tests_cant": "depends on how sequences are nested across tokens and lines; tests use one start and one stop sequence", "anchors": ["attributes/state.go:Push,StartOfLine,EndOfLine", "linebreak/linebreaker.go:boxNodes,render"]}
{"id": "C103", "title": "A State behaves as if it held copies of its renderers", "statement": "Whatever renderers are made, pushed to any number of States in any order and given stop sequences, each State holds the renderers pushed to it, in order, with the nesting levels (hence StartOfLine and EndOfLine) they would have if the State had been built from fresh copies of them; work on other States makes no difference, nil renderers are ignored and nothing panics.", "quantifier": "every program of New, NewState, Push, SetStop and SetLevel calls, over any number of renderers and States", "why_tests_cant": "Push writes the level into the renderer it is given, which other States or other places of the same State may hold: only programs that share renderers show it", "anchors": ["attributes/state.go:Push", "attributes/attribute.go:SetLevel,SetStop"]}
{"id": "C104", "title": "An iterator sees the renderers pushed after it was made", "statement": "When Next and Push are called in any order, the iterator goes through the renderers of the State in the order they were pushed, each once, including those pushed after the iterator was made.", "quantifier": "every State, every sequence of Next and Push calls", "why_tests_cant": "all interleavings of two unbounded sequences", "anchors": ["attributes/state.go:Iterator,Next,Item,Push"]}
{"id": "C105", "title": "Renderers.Stop closes what Renderers.Start opened, last first", "statement": "Start writes the start sequences of the renderers in order and Stop their stop sequences in the reverse order, so that tags (HTML, LaTeX) nest properly.", "quantifier": "every list of renderers, with nil ones", "why_tests_cant": "unbounded lists; the methods have no test", "anchors": ["attributes/iface.go:Start,Stop"]}
{"id": "C106", "title": "Rendering on a writer that fails delivers the beginning of the text", "statement": "Whatever calls of Render, Start, Stop, StartOfLine and EndOfLine are made, a writer that never fails gets the UTF-8 of all they write, and one that fails gets a beginning of it.", "quantifier": "every io.Writer that keeps the contract of the interface, every series of calls, every point of failure", "why_tests_cant": "arbitrary writers and failures at any byte", "anchors": ["attributes/attribute.go:Render,Start,Stop", "attributes/iface.go", "attributes/state.go:StartOfLine,EndOfLine", "terminal/runes/runesio/writer.go"]}
{"id": "C107", "title": "BreakWord does a quadratic number of lookups at most", "statement": "BreakWord looks up n (n + 5) / 2 fragments at most for a word of n runes (exactly that many when the word is not left whole nor an exception), each lookup reading at most as many maps as the longest pattern has runes, plus one: 18 with the embedded patterns.", "quantifier": "every word, dictionary and options; every language", "why_tests_cant": "a bound for all words and dictionaries", "anchors": ["wordbreak/hyphenator/hyphenator.go:BreakWord,isPattern", "wordbreak/hyphenator/internal/trie/rune_trie.go:Get"]}
{"id": "C108", "title": "Stripping a token is linear", "statement": "StripToken reads at most three times as many runes as the token has, plus seven for each part it returns, and returns no more parts than there are runes (one for an empty token). In particular sequences that are read ahead and rewound are not rescanned over and over.", "quantifier": "every token, capacity and classification of runes, including sequences cut short", "why_tests_cant": "a bound for all tokens", "anchors": ["terminal/ansi/ansi.go:StripToken,StripANSIFromRunes,decodeANSISequence,decodeText"]}
{"id": "C109", "title": "BreakWord for any values of the options", "statement": "For every value of the options, negative minima included: a word in the exceptions is cut at its listed positions, any other word where the greatest digit of the patterns looked up is odd, keeping from left to right the positions that respect the minima; the call panics exactly when a position past the end of the word is kept. Patterns that start at the last letter are not looked up; the position after the last letter only counts if a digit is given to the position before the first one. With the embedded pattern files no option makes BreakWord panic.", "quantifier": "every word, pattern file of well-formed lines, and values of minLength, minLeft and minRight", "why_tests_cant": "characterises the result for all option values, words and files; the panic needs a negative minimum and a digit after a final dot", "anchors": ["wordbreak/hyphenator/hyphenator.go:BreakWord,isPattern,mergeBreakPoints,splitAtPositions"]}
{"id": "C110", "title": "LeftAlignUniform behaves the same on every platform", "statement": "Converting a float64 that does not fit in an int gives a value that depends on the platform. New with the same options, then any sequence of calls to LeftAlignUniform, give the same results on every platform (same lines, same ErrCannotBeSet, same panics), as long as the blanks that the options define have widths that fit in an int. This only depends on the options, not on the text or the width of the lines: it fails for a scale factor of 0, for instance.", "quantifier": "every option value (NaN, infinities, negative numbers), every sequence of calls with any tokens and widths; every choice of the conversion of values that do not fit; every map iteration order", "why_tests_cant": "tests run on one platform; the claim is over all of them", "anchors": ["linebreak/linebreaker.go:render,repeatRunes,downScale", "linebreak/options.go:WithScaleFactor"]}
{"id": "C111", "title": "A LineBreaker does not accumulate the texts it has set", "statement": "What a LineBreaker holds between calls of LeftAlignUniform does not grow with the number of calls: setting the same paragraph again and again needs no more memory than setting it once.", "quantifier": "every paragraph, width and options; any number of calls", "why_tests_cant": "a claim on the state after any number of calls; each single call gives the expected lines", "anchors": ["linebreak/linebreaker.go:LineBreaker,boxNodes", "linebreak/knuth_plass_types.go:tokenState.Start", "attributes/state.go:Push"]}
{"id": "C112", "title": "A negative tolerance sets nothing", "statement": "With a tolerance that is negative or NaN, LeftAlignUniform returns ErrCannotBeSet for every text, even when it is as wide as the line: it neither panics nor returns lines, and leaves the line breaker in a usable state. In particular a negative tolerance does not mean lines may be overfull or are always accepted.", "quantifier": "every sequence of tokens, every float64 width (infinities and NaN included), all permissible options, earlier calls, map iteration orders", "why_tests_cant": "all texts, widths and options; comparisons with special floats", "anchors": ["linebreak/linebreaker.go:LeftAlignUniform", "linebreak/knuth_plass.go:mainLoop,adjustmentRatio", "linebreak/options.go:WithTolerance"]}
{"id": "C113", "title": "A huge or infinite hyphen penalty only forbids hyphens", "statement": "WithHyphenPenalty with +Inf, NaN or a huge number (2^512 or more) gives exactly the lines of WithHyphenPenalty(10000), the value that forbids breaks at hyphens: same lines, same ErrCannotBeSet, whatever the text and the width. In particular words are not cut, nothing panics, and the other breaks are not affected.", "quantifier": "every sequence of tokens, every float64 width (infinities and NaN included), all permissible options, earlier calls, map iteration orders", "why_tests_cant": "all texts, widths and options; sums and squares of special floats", "anchors": ["linebreak/options.go:WithHyphenPenalty", "linebreak/linebreaker.go:LeftAlignUniform,pushHyphen,render", "linebreak/knuth_plass.go:mainLoop,demeritsForRatio,demeritsAndClass"]}
{"id": "C114", "title": "Only the text decides where lines are cut", "statement": "Two lists of tokens that have the same texts between their formatting sequences, token by token, whatever these sequences are and whether they are closed or not, are cut into the same lines by two LineBreakers with the same options, whatever was set with them before: both return lines that show the same text, or both return ErrCannotBeSet, or both panic. The sequences in a line come from these tokens or from the earlier calls.", "quantifier": "every pair of token lists, every width (NaN and infinities included) and every option value, every history of calls on each LineBreaker, every map order", "why_tests_cant": "relates two unbounded runs with unbounded histories", "anchors": ["linebreak/linebreaker.go:LeftAlignUniform,boxNodes,render", "attributes/state.go"]}
{"id": "C115", "title": "Whatever the options, LeftAlignUniform ends", "statement": "For any values of the options (NaN, infinite and negative tolerances, scale factors, penalties, measured widths; any measurer, hyphenator and punctuator that return on words, the hyphenator at least one part), any width and any tokens that can be read, LeftAlignUniform ends: the search for the breaks never loops and never panics. The call can panic only while it writes the lines, for one of two reasons: the options give blanks of a negative width, whatever the text, or the breaks that were chosen delimit a line without any text, in which case it always panics (lines that do not fit in memory aside).", "quantifier": "every option value, every float64 width, every token list, every history of calls, every map iteration order", "why_tests_cant": "termination and absence of panics over all numbers, texts and user-supplied functions", "anchors": ["linebreak/linebreaker.go:LeftAlignUniform,render,skipNodes,repeatRunes", "linebreak/knuth_plass.go:breakPoints,mainLoop,insertNewActiveBreak", "linebreak/options.go"]}
{"id": "C116", "title": "As many lines as the text needs", "statement": "For plain non-empty tokens, LeftAlignUniform returns at most as many lines as the text has runes, and the lines have in all as many runes as the tokens joined by spaces, give or take one for each line but the last. The number k of lines is at least what the width requires: k (W + s) >= T + s, for a text of width T, lines of width W and spaces of width s. With the default tolerance it is at most what lines 51 columns short would take: (k - 1) (W - 51 - h) <= T, for a hyphen of width h.", "quantifier": "every non-empty list of plain non-empty tokens, width, permissible options, history of calls and map iteration order", "why_tests_cant": "the bounds are over all texts and widths", "anchors": ["linebreak/linebreaker.go:LeftAlignUniform,render", "linebreak/knuth_plass.go:breakPoints"]}
{"id": "C117", "title": "Lines fit on a terminal", "statement": "By default, and with a measurer that calls runes.Widths with any options (East-Asian mode, width of ambiguous characters, emojis), no line returned by LeftAlignUniform takes more columns than the width, as runes.Width counts the columns of its characters with the same options.", "quantifier": "every text, width, option list of New and of Widths, map iteration order", "why_tests_cant": "relates three packages over all texts and characters; the counterexample is a single character", "anchors": ["linebreak/options.go:defaultFormatterOptions,WithMeasurer", "terminal/runes/width.go:Width,Widths", "linebreak/linebreaker.go:LeftAlignUniform"]}
{"id": "C118", "title": "By default, all characters have width 1", "statement": "As documented on WithMeasurer, by default all characters in a token are considered with width 1: lines hold at most as many characters as the width, and a text of that many characters fits.", "quantifier": "every text, width and map iteration order", "why_tests_cant": "a claim on all characters; the tests use ASCII, for which it holds", "anchors": ["linebreak/options.go:WithMeasurer,defaultFormatterOptions"]}
{"id": "C119", "title": "Combining marks stay with their base character", "statement": "A line returned by LeftAlignUniform never starts with a combining mark (such as U+0301) that followed another character in the text: accented letters are not cut in two.", "quantifier": "every text, set of combining marks, width, option and map iteration order", "why_tests_cant": "depends on every place where punctuator and hyphenator may cut; tests have no decomposed text", "anchors": ["linebreak/linebreaker.go:boxNodes,render", "wordbreak/punctuator/punctuator.go:BreakWord", "wordbreak/hyphenator/hyphenator.go:BreakWord"]}
{"id": "C120", "title": "A closing mark stays with its word", "statement": "With the default punctuator, no line starts with a punctuation mark or hyphen that comes after a letter in its token: a line other than the first that starts with a mark starts with the first character of a token, or with a mark that directly follows another mark or hyphen of the token, which ends the line before. In particular no line starts with a mark when no token does and marks are never doubled.", "quantifier": "every paragraph of plain tokens, width, options of C63, hyphenator, history, map iteration order", "why_tests_cant": "about every place where a line can be cut, in any text, with any hyphenator", "anchors": ["linebreak/linebreaker.go:LeftAlignUniform,boxNodes,leftAlignedNodes", "wordbreak/punctuator/punctuator.go:BreakWord", "wordbreak/hyphenator/hyphenator.go:SplitWord"]}
{"id": "C121", "title": "A wider column needs no more lines", "statement": "On a greater width, LeftAlignUniform returns no more lines for the same text.", "quantifier": "every paragraph of plain tokens, two widths, options, history; every map iteration order", "why_tests_cant": "relates two calls on any text and any two widths; depends on the random iteration order of a map", "anchors": ["linebreak/linebreaker.go:LeftAlignUniform", "linebreak/knuth_plass.go:breakPoints,mainLoop,findBestBreak"]}
{"id": "C122", "title": "Options that allow more never cost a line", "statement": "With a greater tolerance, with word breaking on instead of off, or with a smaller scale factor, LeftAlignUniform returns no more lines for the same text and width.", "quantifier": "every paragraph of plain tokens, width, options, history; every map iteration order", "why_tests_cant": "relates two breakers on any text and any pair of options; depends on the random iteration order of a map", "anchors": ["linebreak/options.go:WithTolerance,WithWordBreak,WithScaleFactor", "linebreak/linebreaker.go:LeftAlignUniform", "linebreak/knuth_plass.go:breakPoints,findBestBreak"]}
{"id": "C123", "title": "The beginning of a text needs no more lines than the text", "statement": "When LeftAlignUniform sets a text, it sets any beginning of it, cut between two tokens, on no more lines.", "quantifier": "every paragraph of plain tokens and beginning of it, width, options, history; every map iteration order", "why_tests_cant": "relates two calls on any text and any of its beginnings; depends on the random iteration order of a map", "anchors": ["linebreak/linebreaker.go:LeftAlignUniform", "linebreak/knuth_plass.go:breakPoints,findBestBreak"]}
{"id": "C124", "title": "Lines are not needlessly short", "statement": "Between the first line and the last one, no line LeftAlignUniform returns has room for the end of the line before: with it, the line would be too wide, or at most 6 columns short of the width. With the default tolerance and a width of 51 at most, such a line is therefore short by at most 6 columns, a space and the widest word, which bounds the number of lines.", "quantifier": "every paragraph of plain tokens, width, options, history; every map iteration order", "why_tests_cant": "a bound on every line of every text, whatever the random iteration order of a map", "anchors": ["linebreak/linebreaker.go:LeftAlignUniform", "linebreak/knuth_plass.go:mainLoop,insertNewActiveBreak,demeritsAndClass"]}
{"id": "C125", "title": "Lines after a line are those of the rest of the text", "statement": "When a line returned by LeftAlignUniform ends between two tokens, the lines after it are those LeftAlignUniform returns for the following tokens alone with the same width, and the lines up to it those it returns for the tokens up to it: a paragraph can be continued on another page by setting the words that are left.", "quantifier": "every plain text, width, permissible options and iteration order of the map", "why_tests_cant": "the choice of each line depends on all the places where lines can start before it; unbounded texts and all map orders", "anchors": ["linebreak/linebreaker.go:LeftAlignUniform", "linebreak/knuth_plass.go:mainLoop,insertNewActiveBreak"]}
{"id": "C126", "title": "Stripping what was stripped", "statement": "What StripToken returns is stable: given the Text of one of its parts, StripToken returns one part with that Text and no sequences; given a StartSequence or a StopSequence, one part with that sequence only; given the runes of a whole part, that part. Text that went through StripToken once can go through it again without changing.", "quantifier": "every token (except those that end in a sequence cut short, see C21), every part, whatever the capacity of the slices", "why_tests_cant": "unbounded tokens; a piece is read without the context in which it was found", "anchors": ["terminal/ansi/ansi.go:StripToken,StripANSIFromRunes,decodeANSISequence,decodeText"]}
{"id": "C127", "title": "Stricter minima only remove hyphens", "statement": "Raising WithMinLength, WithMinLeft or WithMinRight only removes hyphenation points: BreakWord makes no cut that it does not make with the smaller values, so that there are no more parts and each of them is made of whole former parts.", "quantifier": "every dictionary, word and two sets of options, one of which is at least as strict", "why_tests_cant": "all words and pairs of options; each cut depends on the one before", "anchors": ["wordbreak/hyphenator/options.go:WithMinLength,WithMinLeft,WithMinRight", "wordbreak/hyphenator/hyphenator.go:BreakWord,splitAtPositions"]}
{"id": "C128", "title": "Word breakers can be applied again, and in any order", "statement": "Parts made by a word breaker (tokenizer, punctuator, SplitWord, hyphenator) are not broken any more by the same word breaker; and breaking a text with one of them, then each part with another, gives the same parts whichever comes first.", "quantifier": "every rune slice and pair of word breakers", "why_tests_cant": "unbounded texts; two scans that see different words", "anchors": ["wordbreak/iface.go", "wordbreak/tokenizer/tokenizer.go:BreakWord", "wordbreak/punctuator/punctuator.go:BreakWord", "wordbreak/hyphenator/hyphenator.go:SplitWord,BreakWord"]}
{"id": "C129", "title": "Characters of the same kind and width are interchangeable", "statement": "If each character of the tokens is replaced by one of the same width and of the same kind (punctuation mark, hyphen, blank or none of them), LeftAlignUniform returns the same lines with the same replacement, or the same error. In particular, a text in capitals is cut at the same places as in small letters.", "quantifier": "every list of tokens without escape sequences, every width, replacement and iteration order, whatever was set before", "why_tests_cant": "unbounded texts and replacements; a relation between two executions", "anchors": ["linebreak/linebreaker.go:LeftAlignUniform,boxNodes,render", "linebreak/knuth_plass.go:breakPoints", "wordbreak/hyphenator/hyphenator.go:BreakWord", "wordbreak/punctuator/punctuator.go:BreakWord"]}
{"id": "C130", "title": "No-break characters are obeyed", "statement": "A no-break space (U+00A0, U+202F), a non-breaking hyphen (U+2011) or a word joiner (U+2060) in a text keeps what is around it on the same line: no line starts or ends with one of them, whether the text is cut in tokens with the Tokenizer or tokens are given to LeftAlignUniform.", "quantifier": "every text, width, option value and iteration order", "why_tests_cant": "unbounded texts; depends on all the places where three word breakers cut", "anchors": ["wordbreak/tokenizer/tokenizer.go:BreakWord", "wordbreak/hyphenator/hyphenator.go:SplitWord,BreakWord", "wordbreak/punctuator/punctuator.go:BreakWord", "linebreak/linebreaker.go:LeftAlignUniform,boxNodes"]}
{"id": "C131", "title": "Each line returned is one line on the screen", "statement": "The lines returned hold nothing but what is in the tokens, spaces, and '-' where a word is cut and hyphens are printed. They hold no line feed, tab or other blank than the space, so each fills one line of the screen.", "quantifier": "every list of tokens or text, width, option value and iteration order", "why_tests_cant": "unbounded texts and all the breaks that may be chosen; a blank that comes through shows only in some texts", "anchors": ["linebreak/linebreaker.go:LeftAlignUniform,boxNodes", "wordbreak/tokenizer/tokenizer.go:BreakWord"]}
{"id": "C132", "title": "A text can be set when it is cut finely enough", "statement": "When the hyphenator cuts every word into parts that fit in the width (with a hyphen if hyphens are printed), LeftAlignUniform sets the text. So a text written without spaces (Chinese, Japanese) can be set with a hyphenator that cuts between any two characters, or with zero-width spaces where lines may be cut, on lines of any width that holds one character.", "quantifier": "every text, hyphenator, width, option value and iteration order", "why_tests_cant": "unbounded texts and user-given hyphenators; whether a layout exists depends on all the breaks together", "anchors": ["linebreak/linebreaker.go:LeftAlignUniform,boxNodes", "linebreak/knuth_plass.go:adjustmentRatio,mainLoop", "linebreak/options.go:WithHyphenator,WithRenderHyphens"]}
{"id": "C133", "title": "Exactly which texts can be set", "statement": "A text can be set on a width exactly when each of its pieces fits, the pieces being what is left when the text is cut at every place where a line can be cut (with a hyphen where one is printed); the width of the widest piece is the least width on which the text can be set.", "quantifier": "every text, width, option value and iteration order", "why_tests_cant": "an equivalence over all texts and widths; the search may also fail by its tolerance, or by what it did with earlier lines", "anchors": ["linebreak/linebreaker.go:LeftAlignUniform,boxNodes", "linebreak/knuth_plass.go:adjustmentRatio,mainLoop,breakPoints"]}
{"id": "C134", "title": "Two texts set together or apart", "statement": "A text that follows another in the same paragraph takes no more lines than the two set apart, and at most one line less.", "quantifier": "every pair of texts, width, option value and iteration order", "why_tests_cant": "relates three calls on unbounded texts", "anchors": ["linebreak/linebreaker.go:LeftAlignUniform", "linebreak/knuth_plass.go:mainLoop,insertNewActiveBreak"]}
{"id": "C135", "title": "A text can be set when each of its words can", "statement": "Whether a text can be set on a width depends on its words only, one by one: it can be set exactly when each of them can be set alone. The order of the words does not matter, and leaving words out never makes a text impossible to set.", "quantifier": "every text, width, option value and iteration order", "why_tests_cant": "an equivalence over all texts; relates one call to as many others as there are words", "anchors": ["linebreak/linebreaker.go:LeftAlignUniform", "linebreak/knuth_plass.go:adjustmentRatio,mainLoop"]}
{"id": "C136", "title": "Pieces that cannot share a line get a line each", "statement": "When no two consecutive pieces of a text (what is left when it is cut at every place where a line can be cut) fit on a line, LeftAlignUniform returns one line for each piece, whatever the iteration order of the map of candidates; if the text can be set at all.", "quantifier": "every text, width, option value and iteration order", "why_tests_cant": "all iteration orders of a map, unbounded texts", "anchors": ["linebreak/linebreaker.go:LeftAlignUniform,boxNodes", "linebreak/knuth_plass.go:mainLoop,insertNewActiveBreak"]}
{"id": "C137", "title": "With a tolerance of at most 1/2 the lines are determined", "statement": "When WithTolerance is given at most 1/2, LeftAlignUniform returns the same lines for the same tokens and width at every call, whatever the iteration order of the map of candidates.", "quantifier": "every text, width, option value and pair of iteration orders", "why_tests_cant": "map iteration order is random per run; unbounded texts", "anchors": ["linebreak/knuth_plass.go:mainLoop,insertNewActiveBreak", "linebreak/options.go:WithTolerance"]}
{"id": "C138", "title": "With a tolerance of at most 1/2 there are no more lines than needed", "statement": "When WithTolerance is given at most 1/2 (and at least 0), LeftAlignUniform returns no more lines than any way to lay out the text within that tolerance, whatever the iteration order of the map of candidates; if no punctuation mark comes just after a place where the line can be cut, and if no part of a word is narrower than the hyphen put after it. For such texts, more tolerance up to 1/2, word breaking (in a text without pieces that start with a hyphen), a smaller scale factor, or leaving words out at the end (on widths of at most 9994 times the tolerance) never costs a line.", "quantifier": "every text as said, width, option value, layout and iteration order", "why_tests_cant": "all layouts of unbounded texts; random iteration order", "anchors": ["linebreak/knuth_plass.go:mainLoop,insertNewActiveBreak,adjustmentRatio", "linebreak/options.go:WithTolerance,WithWordBreak,WithScaleFactor"]}
{"id": "C139", "title": "With a tolerance of at most 1/2 the rest of a text is set as it was", "statement": "When WithTolerance is given at most 1/2, and a line of the result ends with a token, LeftAlignUniform on the tokens that follow returns exactly the lines that followed, whatever the iteration order of the map of candidates; unless those tokens start with a punctuation mark. In texts of words that are not cut and have no mark, this holds after every line.", "quantifier": "every text, width, option value, line and pair of iteration orders", "why_tests_cant": "relates two calls for every cut of unbounded texts and all iteration orders", "anchors": ["linebreak/linebreaker.go:LeftAlignUniform", "linebreak/knuth_plass.go:mainLoop,insertNewActiveBreak"]}
{"id": "C140", "title": "A hyphenator that cuts words at more places never makes a text impossible to set", "statement": "If LeftAlignUniform sets a text with some hyphenator, it also sets it with a hyphenator that makes the same cuts and others, the measurer adding up widths; in particular when WithMinLength or WithMinRight is lowered. When WithTolerance is given at most 1/2, the text gets no more lines, whatever the iteration order of the map of candidates, unless a mark follows a place where the line can be cut or a part of a word is narrower than the hyphen; with larger tolerances this holds for some iteration order, and may fail for others.", "quantifier": "every text, width, option value, pair of hyphenators and pair of iteration orders", "why_tests_cant": "compares two calls for unbounded texts, all hyphenators and all iteration orders", "anchors": ["linebreak/options.go:WithHyphenator", "linebreak/linebreaker.go:LeftAlignUniform", "wordbreak/hyphenator/options.go:WithMinLength,WithMinRight"]}
