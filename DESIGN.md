# Formal model of fredbi/go-typeset in Coq: design

Status: this file is written before the proofs and kept current. `properties.jsonl` lists the
properties (C01...), `MANIFEST.json` maps them to theorems.

## Layout (rocq/theories)

| file | contents |
|---|---|
| `Base.v` | Go values: runes as `Z`, panics (`go A := Ret a | Panic`), slices with spare capacity |
| `Unicode.v` | `unicode.*` functions used by the code: Latin-1 behaviour concrete, the rest an oracle record |
| `Split.v` | `terminal/runes/fields.go`, tokenizer, punctuator, `SplitWord` |
| `Tables.v`, `Width.v`, `Once.v` | `terminal/runes` width tables, lookup cache, `sync.Once` schedule model |
| `BuildTables.v`, `Ucd.v` | `terminal/runes/build_tables.go`: tables of entries; reading files (a part of `fmt.Sscanf`) and printing |
| `TablesGo.v` | `runes_tables.go` as data (written by `tools/gen_source.py`) |
| `Utf8.v`, `Reader.v` | `terminal/runes/runesio` writer and SliceReader, Go's UTF-8 codec |
| `Ansi.v` | `terminal/ansi` over an explicit backing array |
| `Sgr.v` | which graphic rendition sequences are read as formatting (C23) |
| `Attr.v` | `attributes` |
| `Trie.v`, `Dict.v`, `Cache.v`, `Hyph.v` | `wordbreak/hyphenator`: trie, pattern files, dictionary cache, BreakWord |
| `Text.v`, `Pat*.v`, `Lang.v`, `Shipped.v` | the embedded pattern files as data (generated by `tools/gen_patterns.py`), languages, a checker |
| `Strip.v`, `Src*.v`, `TexProofs.v` | `languages/strip_comments.go`; the TeX files of `languages/tex` as data (same generator) |
| `HyphTests.v`, `RepoTests.v`, `LineTests.v` | the expectations of all the unit tests of the repository, computed by the model (checks the model, not the code); those of `linebreaker_test.go` for every iteration order |
| `Arith.v`, `ArithB64.v` | float64 as a record of operations with laws; IEEE-754 binary64 (Flocq) satisfies them |
| `Succeed.v` | texts that can be set, and how full lines are |
| `Words.v` | the words that lines cut, and the dictionary |
| `Strings.v` | LeftAlignUniform and the tokenizer on UTF-8 bytes |
| `ScaleB64.v` | scale factors that are not integers, on binary64 |
| `KP.v`, `Nodes.v`, `Render.v`, `Options.v` | `linebreak`: search, nodes of tokens, rendering and LeftAlignUniform, options and New; parametric in the arithmetic |
| `SpecKP.v`, `SpecDemerits.v` | what a paragraph laid out on lines is; feasible lines; demerits over the rationals |
| `KPProofs.v`, `KPStart.v`, `Frags.v`, `Para.v`, `Show.v`, `Tokens.v` | the search on the nodes of a paragraph: sound, complete, longest last line; rendering |
| `Align.v`, `Call.v`, `Settings.v`, `AlignProofs.v`, `Reuse.v`, `Fresh.v` | LeftAlignUniform on plain tokens, for line breakers made by New and used any number of times |
| `SpecBlocks.v`, `Blocks.v` | line breaks in documents with adjacent formatted runs |
| `SpecFormat.v`, `SpecLines.v`, `Format.v`, `FormatLines.v`, `SpecScreen.v`, `Screen.v`, `FormatCall.v` | LeftAlignUniform on tokens with escape sequences: runs with or without a start and a stop sequence; passages over several tokens |
| `Span.v` | lines of formatted text displayed alone (C102) |
| `Heap.v`, `SpecHeap.v`, `HeapProofs.v` | renderers as objects shared by several States, iterators on States that grow, lists of renderers (C103-C105) |
| `Writers.v` | renderers on writers that may fail (C106) |
| `Work.v` | BreakWord with a counter of lookups (C107) |
| `StripWork.v` | StripToken with a counter of reads (C108) |
| `SpecHyphAll.v`, `HyphExact.v`, `HyphSafe.v` | BreakWord for any options: exact result, panics (C109) |
| `Kept.v` | what a LineBreaker keeps between calls (C111) |
| `History.v` | two calls on the same texts with other formatting and other earlier calls (C54, C114); what is kept, for any tokens (C111) |
| `Total.v` | the search ends, and what can panic, for any option values (C115) |
| `Count.v` | how many lines and runes (C116) |
| `Display.v` | measurers that call runes.Widths (C117, C118) |
| `Fewest.v` | the number of lines of greedy layouts (C91, C121) |
| `Counts.v` | numbers of lines compared (C122, C123) |
| `Filled.v` | how short lines can be, for every iteration order (C124) |
| `Rest.v` | the lines of the end of a text (C125) |
| `Pieces.v` | parts of a token stripped again (C126) |
| `Minima.v` | stricter minima of the hyphenator (C127) |
| `Orders.v` | word breakers one after the other (C128) |
| `Letters.v` | characters replaced by others of the same kind and width (C129) |
| `Joined.v` | runes that no line may start or end with (C130) |
| `OneLine.v` | the runes of the lines (C131) |
| `Parts.v` | texts cut wherever the hyphenator allows it (C132) |
| `Atoms.v` | the pieces of a text that cannot be cut (C133) |
| `Join.v` | two texts set together or apart (C134) |
| `EachWord.v` | a text and its words (C135) |
| `Apart.v` | pieces that cannot be on the same line (C136) |
| `Sure.v` | one line kept for each place, hence one layout (C137) |
| `FormatSure.v` | the result on formatted tokens as a function of the layout (C87, C137, C138) |
| `RestSure.v` | the rest of a text for every order (C139) |
| `Least.v` | what holds for some order holds for every order when there is one layout (C138) |
| `AgainSure.v` | lines set again, for every order (C101) |
| `Cuts.v` | where lines are cut, in terms of tokens and characters (C57) |
| `Finer.v` | hyphenators that make more cuts (C140) |
| `Closing.v` | marks at the start of a line (C120) |
| `Combine.v` | runes that belong with the one before them (C119) |
| `Convert.v` | LeftAlignUniform with another conversion to int (C110) |
| `Platform.v` | float64 with a platform-dependent conversion of values that do not fit in an int (C110) |
| `SpecAny.v`, `AnyNodes.v`, `AnyLines.v`, `AnyShape.v`, `AnyCall.v` | LeftAlignUniform on any tokens: empty, without text, unbalanced sequences |
| `Cost.v`, `CostCall.v` | the search with a counter of the lines it looks at; bounds |
| `Compare.v` | LeftAlignUniform with two settings: which changes keep a text possible to set |
| `SpecGreedy.v`, `Greedy.v`, `GreedyFormat.v` | exactly which layouts can be returned, for plain and formatted tokens; the hyphen penalty |
| `HyphNew.v` | hyphenator.New, its options and languages, SupportedPatterns |
| `ScaleLines.v` | error of rounding word by word: widths of lines with real scale factors (C45) |
| `Sub.v` | scale factors compared (C95); the beginnings of a text (C96) |
| `Alias.v` | the loops of `Split.v` and `Hyph.v` once more, returning slices (positions in the array of the word) instead of contents; writes and appends through these slices (C97) |
| `Endless.v`, `Huge.v`, `NoNumber.v` | LeftAlignUniform with infinite, huge and negative widths and NaN of binary64 (C79, C98), and with a negative tolerance (C112) |
| `Forbid.v`, `ForbidB64.v` | LeftAlignUniform with a huge, infinite or NaN hyphen penalty (C113) |
| `Shared.v` | goroutines calling LeftAlignUniform on line breakers they may share: the statements of a call and the fields they use (C99) |
| `Fraction.v` | widths and measures that are not integers, on binary64 (C100) |
| `Again.v` | the lines of a call read back as a text and set again (C101) |
| `Spec*.v` | small specifications, independent of the model's helpers |
| `*Proofs.v` | proofs |
| `Prop*.v` | only property theorems, each `exact lemma.` followed by `Print Assumptions` |

## Modelling decisions

* A rune is a `Z`; properties about 32-bit range or 64-bit wrap-around write the range or the wrap explicitly.
* A Go panic is the value `Panic`; nothing is silently totalised. A slice expression `s[a:b]` is checked
  against the **capacity**, as Go does, and may therefore expose runes beyond `len`.
* `unicode.IsDigit`, `IsPunct`, `ToLower` beyond Latin-1/ASCII are oracles (they depend on the Unicode
  version of the Go toolchain): theorems quantify over every oracle. `unicode.IsSpace` and `unicode.Hyphen` are concrete.
* Map iteration order (`for class, candidate := range candidates`) is an oracle: a list holding the four
  fitness classes for each node and insertion. The refutations use rotations, the orders that Go's small maps really have. Theorems quantify over all of them.
* `float64` is a record of operations (`arith`). Structural theorems hold for every such record; theorems that
  need numbers assume `laws` (exact on integers below 2^53, `<=` transitive, quotients of integers compare correctly with 1/2, 1 and 8.6,
  no overflow), which is proved for IEEE-754 binary64. `math.Pow` is any function within a factor of 2 of the exact cube
  or square; the examples use multiplications. No fused multiply-add: on architectures where Go fuses `x*y + z`, the only
  fused expressions are `line + badness*|r|^3` and `width + ratio*stretch`, where the ratio is always 0 (see C49).
* Goroutines, `sync.Mutex`, `sync.Once` are explicit step relations over an arbitrary number of threads.

## Properties: what is modelled and how it is proved

| id | model and proof |
|---|---|
| C01, C02 | index-based loop of FieldsFunc; loop invariant on (start, consumed prefix), spec = relational decomposition + uniqueness |
| C03-C05 | same for breakAtFunc / SplitWord |
| C06-C12, C67 | tables copied from the source, binary search by fuel on index interval; interval algebra, table facts by `vm_compute` (finite data), packed byte arithmetic |
| C70, C71 | the in-place merge loop equals a recursive merge; canonical interval lists are determined by their members |
| C81, C82 | the scanner of each format on the grammar of the lines; printed numbers read back; the shipped file by computation |
| C13 | small-step model of `sync.Once` (fast path, mutex, slow path); invariant over all schedules |
| C14, C15 | byte-level UTF-8 encoder/decoder of Go; case analysis per length class, induction on the list |
| C16-C19 | `step` function of the reader, simulation with an abstract cursor; explicit `wrap64` |
| C20-C25 | parser over backing array + window; fuel-free by measure (window length), loop lemmas; over-read witness |
| C26-C29 | renderer list, levels by induction; flat contexts via a two-state automaton |
| C30, C31 | inductive trie with association lists, refinement to a partial function, canonical form invariant |
| C32-C34 | line decoder, fold over file lines |
| C35 | step relation with mutex |
| C36-C42 | positions masks as lists; Liang spec as a max over occurrences, loop invariants for merge |
| C43 | pattern files translated to Coq data; decided by computation (finite domain) |
| C68, C69 | lazy match of the regular expression by induction on the line; the five TeX files by computation |
| C44-C59, C62, C63 | nodes of tokens as fragments; main loop with an invariant on the active list (all demerits are 0, hence the first feasible candidate of each class survives); layouts of fragments; render; options as a fold |
| C72-C74 | the conditions of lines against the default tolerance, through the laws of division |
| C75, C76 | UTF-8 encoding is a morphism; reflow carried through it |
| C77 | every soft break of a paragraph is between two parts of a word of a token; C61 for the place in the word |
| C64, C65 | the nodes of a formatted token are those of its text, its attributes are a document as in C28; simulation with the call on the bare texts, then exact rendering |
| C78 | the nodes of any tokens as spans of text; every line is a span; sequences of the renderers are a subset of those read; empty tokens at the start are replaced by nodes that the search skips |
| C79 | C78, and the width of the lines |
| C80 | the search with a counter erases to the search; four new active breakpoints at most for each node; every breakpoint of the chosen chain was looked at from all later ones |
| C83-C86 | the layouts of one setting are layouts of the other (soundness of one call, completeness of the other) |
| C87-C91 | the breakpoints kept at a node are the longest lines of each class (C87, soundness); for a greedy layout, an iteration order that returns it (completeness); penalties only matter through `softOn` (C88, C89); taking the longest last line is best, since what comes before it needs no more lines than any longer part of the text (C91) |
| C92-C94 | options as a fold; the language matcher of golang.org/x/text is any function; names sorted by insertion |
| C95, C96 | C83-C86 |
| C97 | the loops return positions in the array of the word, erasing to C03, C05, C40; writes and appends on that array |
| C98 | C46, C47 on special values of binary64 |
| C99 | steps of a call commute with steps on other line breakers |
| C100 | error bounds of Flocq for products and roundings, summed over the pieces of a line |
| C101 | the fragments of the words of a line: one that starts with a mark comes from a line that did (the place of punctuation in a token is kept as an invariant on suffixes) |
| C102 | corollary of C66; counterexamples computed |
| C103 | invariant of the renderers pushed so far, by induction on the program |
| C104, C105 | induction; counterexamples computed |
| C106 | contracts of io.Writer as predicates; induction on the writes |
| C107 | exact count by induction; depth of tries under Put |
| C108 | potential: what a call rewinds is taken by the next one |
| C109 | scan without a bound on minRight; embedded files by computation |
| C110 | the model maps to itself with another conversion: nodes, breaks and lines are the same; C87 on both platforms for other map orders |
| C111 | the State after a call is the State before it with one renderer for each fragment; induction on the calls |
| C114, C54 | simulation of the two runs: nodes that differ only by their renderers |
| C115 | the active list empties in one turn of the main loop; invariants on breakpoints and nodes: positions increase, ratios are 0, boxes have their renderer; the last node is a forced break |
| C116 | sums over the lines of what holds of one: it is made of a part of the text, fits the width, and is not too short (C73) |
| C117, C118 | C45 and C44 with the measurer as a sum of columns |
| C119 | a line starts where a fragment starts; the pieces of a word keep the pairs of runes that belong together |
| C121 | C85, then C91 |
| C122 | C83, C84, C95, then C91 |
| C123 | C96, then C91 |
| C124 | C87: of two lines of the same class that end at the same place, the longer is kept |
| C125 | C124's shape of the result, shifted: after a cut between tokens the same choices are made, for some order |
| C126 | a run of consecutive items of a lexing is a lexing of its own; the text of a part is text, then sequences of no kind |
| C127 | the places allowed do not depend on the minima; counting cuts along both scans |
| C128 | both orders cut at the union of the two sets of separators |
| C129 | the nodes of both texts are the same up to their runes, which the search does not read; rendering commutes with the replacement |
| C130 | C119 for the starts of lines; lines end where a token, a part of a word or a mark ends |
| C131 | C44 (what the lines make together), C02 |
| C132 | C72, with one part on each line |
| C133 | each piece is inside a line (C44); C72 with one piece on each line |
| C134 | C91, C72; layouts put together, or cut where the second text starts |
| C135 | C133, and that the pieces of a text are those of its words |
| C136 | the lines of a layout are groups of pieces |
| C137 | a tolerance of at most 1/2 leaves one class of lines; layouts compared from the end |
| C138 | the counts of C91, C122 and C123 for some order, with the one layout of C137 |
| C139 | C125 for some order, with the one layout of C137 |
| C140 | a layout of the pieces is one of the finer pieces, with the same widths (C44, C72); C91 and C137 for the counts |
| C120 | fragments next to each other: a part after a soft break has no mark, a fragment after a mark continues the same token |
| C112 | C46, C47 on any width |
| C113 | simulation of the two runs: nodes that differ only at hyphens, where the main loop keeps its breaks as they are |
| C66 | C65, lexing each line and running it through a terminal that only knows start and stop sequences |

## Trusted base

Coq 8.16.1 kernel (with `vm_compute`); the reading of the Go sources cited in each definition; the Go standard
library behaviours listed in `Unicode.v`, `Utf8.v`, `Ucd.v` (`fmt.Sscanf`, `%04X`). Nothing in the code is executed here.
`Print Assumptions` results are summarised at the end of this file.

`runesio.AsRunesWriter`, called by `linebreak/linebreaker.go:156`, is not defined anywhere in the pinned source (only
`NewWriter` is): package `linebreak` does not compile as it stands. The model reads it as `NewWriter`.

## Not modelled

* `terminal/runes/build_tables.go`: the download, writing the file, and `go/format`.
* `strip_comments.go`: opening and writing files; the model maps the lines of one file to another.
* Allocation: a result that does not fit in memory (`make` panics when a measurer gives spaces a width of 2^50, say),
  and `bufio` buffering.
* The pools and locks of the standard library other than `sync.Once` and `sync.Mutex`.
* Benchmarks of the repository. The expectations of its tests are reproduced in `HyphTests.v`, `RepoTests.v`, `LineTests.v`.

## Defects found in the code (each is a `_refuted` theorem unless said otherwise)

* All demerits are 0: breakpoints are not optimal (C49) and depend on the iteration order of a map (C48).
* A tolerance of 10000 or more lets overfull lines through (C45, C53); scale factors that are not integers change widths
  (C45) and, up to 2/3, the number of spaces (C59).
* WithHyphenPenalty(math.Inf(1)), or NaN, makes texts that have punctuation marks impossible to set (C113): the option is also the cost of two breaks in a row at marks.
* A scale factor of 0 makes LeftAlignUniform panic on amd64 (`int(0/0)` blanks), and drop blanks on arm64 (C110).
* Widths above 86000 are refused for short texts; above 5000 the result is not always one line (C50).
* A negative hyphen penalty, or a hyphenator that returns no part, makes LeftAlignUniform panic (C51); penalties of
  0, 200 and 400 write hyphens at other breaks (C52).
* A token that starts with a mark can be separated from its mark (C74), and can make a wider column fail (C72); a text
  with words of more than 51 columns can be refused though its words fit (C72).
* A text that can be set is refused on a greater width (C85), when words may be broken (C84), or when hyphens are not
  printed (C86).
* The hyphen penalty makes no difference, up to 2^100, but for 10000 (C88); the looseness is ignored (C90); lines may be more than
  needed with some orders (C91), and with all of them if a mark could come first on a line.
* A language tag with a region may get American patterns (C92). The matcher of golang.org/x/text, as far as its documentation
  goes, returns such tags for French in France; its source is not available here, so the theorem gives the matcher explicitly.
* Attributes of earlier calls are never reset (C54), so that all texts ever set stay in memory (C111); sequences without text are dropped and the first run can be opened
  twice (C56).
* Three empty tokens at the start of the list make LeftAlignUniform panic, one makes it refuse texts that fit (C78).
* A LineBreaker used by two goroutines at a time gives one the text of the other, or panics (C99).
* Widths are rounded to the nearest integer, so that lines of 11 columns are returned for the width 10.5; a measurer whose unit is not the width of a
  space joins words or doubles spaces (C100).
* Formatting formatted text can move hyphens (C101).
* Formatting that is not closed, or opened twice before it is reset, leaks out of lines and onto plain text (C102).
* A renderer that two States hold gets its level from the last Push: the other State then opens and closes the wrong runs (C103). An iterator that has reached the end ignores later renderers (C104). Renderers.Stop closes in the order of opening (C105).
* Rendering drops the errors of the writer: text may be missing in the middle of what is delivered (C106). BreakWord goes on looking up longer fragments when no pattern has them as a beginning, hence quadratic (C107).
* StripToken may return a rune twice for a token cut short after three digits (C20). WithMinLeft also counts from the last hyphen, so that a greater value can move a hyphen (C127).
* The lines that follow a line can depend on what comes before it (C125, when a mark could start the rest).
* No-break spaces are dropped by the tokenizer, and lines are cut after the hyphen that does not break, U+2011 (C130). Exceptions of the hyphenator do not apply to capitals (C41, C129).
* Tokens may hold line feeds, which are kept in lines (C131). Without printed hyphens, a line cut inside a word must be exactly full, so that texts without spaces are refused on most widths (C132).
* The work is quadratic, as breakpoints that are too far are never dropped (C80, not a `_refuted` theorem).
* The British exception list is not applied as written (C69), see also the properties of the hyphenator (C36-C43).

## Print Assumptions

Obtained with `tools/assumptions.py`, which compiles every `Prop*.v` and reads the output of `Print Assumptions`.

365 theorems, of which 278 are "Closed under the global context".

With `ClassicalDedekindReals.sig_forall_dec`, `ClassicalDedekindReals.sig_not_dec`, `Classical_Prop.classic`, `FunctionalExtensionality.functional_extensionality_dep` (standard library):

* `PropAgain.v`: C101_lines_refuted
* `PropAlign.v`: C63_real_scale, C45_tolerance_refuted, C45_scale_refuted, C45_scale_above_one_refuted, C48_deterministic_refuted, C49_optimal_refuted, C50_one_line_refuted, C50_wide_line_refuted, C51_negative_penalty_refuted, C51_no_parts_refuted, C52_collision_refuted, C53_tolerance_refuted, C54_reuse_refuted, C56_sequences_refuted, C59_spaces, C59_scale_refuted, C72_marks_refuted, C72_long_words_refuted, C74_opening_mark_refuted
* `PropAny.v`: C78_empty_token_refuted, C78_leading_empty_refuted
* `PropAtoms.v`: C133_mark_refuted, C133_wide_refuted
* `PropCombine.v`: C119_mark_refuted, C119_hyphen_refuted
* `PropCompare.v`: C84_wordbreak_refuted, C85_wider_refuted, C86_hyphens_refuted
* `PropCounts.v`: C122_tolerance_refuted, C122_wordbreak_refuted, C122_scale_refuted, C123_beginning_refuted
* `PropDisplay.v`: C117_columns_refuted, C118_characters_refuted
* `PropEachWord.v`: C135_wide_refuted, C135_mark_refuted
* `PropEndless.v`: C98_infinite, C98_huge, C79_negative, C98_nan, C112_tolerance
* `PropFewest.v`: C91_mark_refuted, C91_thin_refuted, C121_wider_refuted
* `PropFilled.v`: C124_first_refuted
* `PropFiner.v`: C140_lines_refuted
* `PropForbid.v`: C113_forbid_partial, C113_forbid_refuted
* `PropFraction.v`: C100_new_works, C100_lines_partial, C100_rounded, C100_width_refuted, C100_unit_refuted
* `PropGreedy.v`: C88_penalty_refuted, C90_looseness_refuted, C91_fewest_refuted
* `PropHistory.v`: C114_inside_refuted
* `PropJoin.v`: C134_join_refuted, C134_wide_refuted
* `PropJoined.v`: C130_tokenizer_refuted, C130_hyphen_refuted, C130_mark_refuted, C130_joiner_refuted
* `PropKept.v`: C111_bounded_refuted
* `PropLeast.v`: C138_one_refuted, C138_thin_refuted, C138_mark_refuted
* `PropLetters.v`: C129_exception_refuted
* `PropOneLine.v`: C131_feed_refuted
* `PropParts.v`: C132_odd_refuted, C132_zero_width_refuted
* `PropPlatform.v`: C110_same, C110_lines, C110_set, C110_platform_refuted
* `PropRest.v`: C125_mark_refuted, C125_before_refuted
* `PropScale.v`: C45_real_scale_partial
* `PropShared.v`: C99_shared_refuted
* `PropSpan.v`: C102_open_refuted, C102_leak_refuted, C102_lost_refuted
* `PropStrings.v`: C75_invalid_refuted
* `PropSub.v`: C95_scale_refuted, C96_excerpt_refuted
* `PropSure.v`: C137_one_refuted
