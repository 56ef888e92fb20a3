# A Rocq (Coq 8.16.1) model of pdfje

## Method

The model is shallow: every Python function of interest is one Gallina function
with the same branches, and exceptions are values (`res A := Ok a | Err e`).
Loops are structural recursions, or recursions on explicit fuel that return
`Err EFuel` when it runs out; the termination theorems (C37, C48) then give an
explicit amount of fuel that is always enough.  Python iterators are lists;
infinite ones (pages, columns) are functions `nat -> A`.  Generators that stop in
the middle (an exception while writing) return what was yielded so far together
with how they ended (`Document.v`).

The specification side is separate from the model and small: a PDF reader
(`PdfSpec.v`), an interpreter of the text and graphics operators
(`RenderSpec.v`, `DrawSpec.v`), "the text of a line" (`WordsSpec.v`,
`LineSpec.v`), feasible sequences of breaks (`KPSpec.v`), what a page tree
describes (`DocumentSpec.v`), …  Every property theorem is in a `Properties_*.v`
file with its name starting with the property's id, followed by an example that
shows that its hypotheses can be met by a non-trivial input, and
`Print Assumptions`.

Where the code violates a property, the theorem is named `..._refuted` and proves
the negation (for all inputs of the bad kind where possible, otherwise on a
witness); the strongest positive statement we could prove stands beside it with
the suffix `_partial`.  The manifest then says "partial" even when the two
together characterise the behaviour completely.

**Numbers.**  The code computes with Python ints and floats.  Model functions that
compute take a record of operations `Num` *without laws*: structural theorems
(nothing lost, order, styles, references, termination) hold for every such record,
so also for IEEE doubles (as far as no operation raises).  Theorems about
quantities (widths fit, justified lines fill the column, optimality, positions)
are for exact rationals (`QcNum`); rounding errors are covered by C81, C82, C90 and C91,
which are about Python's floats themselves (`Float64`: Flocq's IEEE-754 binary64, with
CPython's algorithm for `//`; checked against Python on 400 random operations,
`tools/floattest.py`; `sum` adds in order, as before Python 3.12, which adds with
compensation).  Formatting
with `%g` is modelled exactly (`Gfmt.v`: six significant digits, half to even).

**Environment.**  Font metrics, kerning tables, hyphenators, `\w`, `str.lower`,
Unicode digit/space classes, `zlib.compress`, the file id, and what fontTools
reads from a font file are universally quantified (type classes `Env`, `Uni`,
section variables): theorems hold for all of them, with the hypotheses they state.
For the standard fonts the tables in `fonts/builtins.py` themselves are in the
model (`BuiltinTables.v`, generated by `tools/mkbuiltins.py`).

## Files

| model | specification | proofs | theorems |
|---|---|---|---|
| Base, Gfmt, Atoms | PdfSpec | GfmtProofs, AtomsProofs, FileProofs, NameProofs | Properties_Atoms |
| Num, Fonts | FontSpec | FontProofs | Properties_Fonts |
| BuiltinTables, Builtins | – | – | Properties_Builtins |
| State, Style | TextSpec | StateProofs | Properties_Style |
| Words, Parse, Render | WordsSpec, RenderSpec | WordProofs, RenderProofs, WordWidth, WordOps | Properties_Words |
| Hyphen | – | – | Properties_Hyphen |
| Firstfit | LineSpec | FirstfitProofs, FirstfitWidth | Properties_Firstfit |
| KnuthPlass | KPSpec | KPProofs | Properties_KnuthPlass |
| Float64, NumLaws | | FloatProofs, NumInstances, LayoutLaws | Properties_Float |
| | OptimalSpec | OptimalProofs | Properties_Optimal |
| | LineKernSpec | LineKernProofs | Properties_LineKern |
| | | OptimumOrphans | Properties_Orphans |
| | SceneSpec | SceneProofs | Properties_Scene |
| | SceneSpec (marks moved: top of SceneMoved) | LayoutMoved, SceneMoved | Properties_Moved |
| | (regrouped, cut, clean in Regroup; top of Properties_Regroup) | Regroup, Recut | Properties_Regroup |
| | (scaled_… in ScaleLayout, larger_op in ScaleRender) | ScaleWords, ScaleText, ScaleLines, ScaleOptimum, ScaleLayout, ScaleRender | Properties_Scale |
| | (recolour_…, recoloured_op in Properties_Colours) | (the same) | Properties_Colours |
| | | | Properties_Prefix |
| | GreedySpec | GreedyProofs | Properties_Greedy, Properties_Wider |
| | (in Printable, ShortWords, PlainDoc, Properties_Plain) | NumbersUsed, Printable, ShortWords, PlainDoc | Properties_Plain |
| | (top of Properties_Round) | RoundErr, FloatLines, FloatWidths, FloatText, FloatPara, FloatTotal, FloatRules, LawTotal, LawRules, FloatOptimum, WritesTotal, FloatWrites, FloatJustify, FloatJustified | Properties_Round, Properties_RoundOk, Properties_RoundOpt, Properties_RoundWrite, Properties_RoundJust |
| Units | | | Properties_Units |
| Optimum | LineSpec | OptimumProofs, OptimumWidth, OptimumLines, OptimumTotal | Properties_Optimum |
| Common, Draw | DrawSpec | Show, TextBlock, TextPos | Properties_Common, Properties_Draw, Properties_Text |
| Layout | LayoutSpec | LayoutProofs, LayoutText, LayoutPages, LayoutRoom, LayoutStyle | Properties_Layout |
| Document | DocumentSpec | FontsUsed, DocumentProofs | Properties_Document |

## What is modelled, and what is not

| source | modelled | not modelled |
|---|---|---|
| `atoms.py` | everything except `Bool` (its `write` only raises) | the randomness of the file id (any bytes) |
| `common.py` | `XY`, `Sides`, `RGB` and their parsing, `Align`, `dictget`, iterator helpers (as list operations) | `__repr__`, `pipe`, slicing of `XY` beyond integer indices |
| `units.py` | everything | – |
| `style.py` | `Style`, `StyleFull`, `|`, `diff`, `Span`, `flatten`, parsing of style-likes | `__repr__`; the patched `__or__` of `RGB` and typefaces (they call `Style.parse`) |
| `fonts/common.py` | `TrueType`, `BuiltinTypeface`, `BuiltinFont`, `kern` | – |
| `fonts/builtins.py` | all width and kerning tables | whether they are the real metrics of the fonts |
| `fonts/embed.py` | `Subset` (codes, encoding, widths, kerning, glyph map, ToUnicode, the seven objects, the font descriptor) | what fontTools does: the tables of the file and the subsetted file are arbitrary data (`tt`, `ttf`); the branch without fontTools |
| `resources.py` | everything | – |
| `page.py`, `document.py` | everything | reading `Iterable`s given by the user that raise or have side effects |
| `draw.py` | all drawings | – |
| `layout/*.py` | everything | user-defined blocks |
| `typeset/state.py`, `parse.py`, `words.py`, `layout.py` | everything used for output | caching of `lead`; `hyphens` set to user functions that raise |
| `typeset/hyphens.py`, `vendor/hyphenate.py` | `never_hyphenate`, `_pyphenate`, `Hyphenator` for any patterns and exceptions, and with the English patterns of the package | pyphen itself |
| `typeset/firstfit.py`, `optimum.py`, `knuth_plass.py` | everything | columns after the first of negative height in `ColumnQueue` (bisect needs ascending counts) |
| `vendor/get_kerning_pairs.py` | everything, from the GPOS table as fontTools presents it | fontTools; the attributes `singlePairs`, `classPairs`, `allLeftClasses`, `allRightClasses` (never used) |

Simplifications are stated in the comment of the definition concerned.  The main
ones: `tee`d iterators are shared lists; float overflow in `**` (an
`OverflowError`) and nan/inf as *inputs* of layout are not modelled; writing is
modelled at the granularity of whole objects (`map(b"".join, ...)` in
`atoms.write` joins an object before it is yielded).

## Trusted base

* Coq's kernel (8.16.1) and `coqc`.  `vm_compute` is used for finite checks.
* **Axioms.**  None for all theorems but those of C81, C82, C90, C91, C93–C99: `Print Assumptions` says
  "Closed under the global context" (the command is repeated in the `Properties_*.v`
  files).  `C81_doubles`, `C81_lines_fit`, `C82_units_doubles`, `C82_whole` and the theorems of C90, C91 and C93–C95 speak about real numbers, through Flocq, and rest on four
  axioms of the standard library: `ClassicalDedekindReals.sig_not_dec`,
  `ClassicalDedekindReals.sig_forall_dec`,
  `FunctionalExtensionality.functional_extensionality_dep` and `Classical_Prop.classic`.
  `C96_where_columns_are`, `C97_same_file_partial`, `C98_scaled` and `C99_other_colours` use `functional_extensionality_dep` alone.
  Flocq (a library without axioms) is used there and nowhere else.  `vcheck` also lists seven entries
  `Coq.ssr.ssrunder.Under_rel.*`: these are the fields of a module type in the
  standard library's ssreflect files, loaded indirectly (`Lia`/`ssr`), on which no
  theorem here depends.
* The reading of the Python source: each definition cites file and lines.
* The specifications: `PdfSpec.v` and the operator interpreters are our reading of
  ISO 32000-1, restricted to the constructs that occur.
* `tools/mkbuiltins.py`, which copies the tables of `fonts/builtins.py`.

## Defects of the code found on the way

Each is a theorem `..._refuted` (ids are those of `properties.jsonl`).

* C04: `%g` prints numbers of at least 999999.5, and tiny ones, with an exponent,
  which is not a legal PDF number.
* C05: `sanitize_name` keeps PDF delimiters, so a font name with `(`, `/`, … breaks
  the file.
* C13: `Symbol` and `ZapfDingbats` in different weights share one resource id, so
  the resource dictionary has duplicate keys (with equal values).
* C17: the ToUnicode map has one `beginbfchar` block however many characters.
* C21, C25: squashing nested chains of commands drops commands.
* C24: an empty passage after a word boundary makes the parser drop all text after it.
* C27: the vendored hyphenator is wrong when lowercasing changes the length of a word.
* C37, C46: columns of negative height make first-fit loop forever and make the
  optimal algorithm lose lines.
* C42: the optimal algorithm raises `NoFeasibleBreaks` although breaks exist, when a
  hyphen is wider than the syllable that follows.
  C83 states this for a text: "abI" in a column where it fits, but "ab-" does not, is a
  `RuntimeError` (`C83_best_refuted`).
* C85: with optimal line breaks and orphan avoidance, a fresh column with room for one line
  is left empty after a column without room (`C85_columns_used_refuted`).
* C84: lines of a paragraph with optimal line breaks start with the kerning between their
  first character and the space before it (`C84_optimal_refuted`); first-fit lines do so
  after a word that is too wide (`C84_first_fit_refuted`), and then a first-line
  indentation is dropped as well.
* C45: a style change carried by a space alone on its line is lost.
* C47: lines whose spaces would have to double exactly are not stretched
  (`ratio != 1`).
* C51: a rule that does not fit is drawn outside its column, whose content is
  emitted twice; the room left is negative, and an optimally broken paragraph
  after it loses every line but the first.
* C25, C55: in `["foo", Span(["", Span("bar", color+spacing)], bold+color)]` the bold is lost:
  "bar" is encoded for the bold font and shown in the regular one (nested chains, C21).
* C54: the first word of a column is shown in the style *after* it; and with optimal line
  breaks, a space that stands alone (a span of one space, say) may become a line of its own, and
  the change of style after it is lost: the following text is shown in the wrong font.
* C55: text that starts with a line break in a new style is encoded for the old font.
* C59: `Polyline` rejects an `XY` as first point.
* C60: `#+1-2 3`-like strings are accepted as colours; negative components too.
* C64: writing to a path truncates the file before anything is rendered.
* C66: glyph widths of embedded fonts are truncated to integers.
* C67: nineteen characters shown as `?` (and the no-break space) are measured as
  something else.
* C69: the optimal algorithm aligns lines by a width that includes the removed space
  and excludes the added hyphen.
* C70: colour operators stand between path construction and painting, which
  ISO 32000 (figure 9) forbids.
* C77: of two lookups that adjust the same pair only the last counts; a glyph shared by
  two characters (space and no-break space) is kerned for the last only; a font with
  right-to-left pair values makes kerning raise a TypeError.
* C79: with optimal line breaks, a right-aligned hyphenated line sticks out of its column by the hyphen, and a justified line without spaces (a long last word) is not hyphenated at all and sticks out.
* C80: a Polyline whose first point is an XY raises TypeError while its page is written (the other points may be XYs); with the default (optimal, left) settings a word wider than its column raises RuntimeError and leaves a file with only a header; with the default settings a one-line paragraph after a rule that does not fit its column raises IndexError. (C89: so does Document("W" * 45) on the default page.)
* C97: a word given in two strings is broken over lines at other places than the word
  in one; after an empty string the text that follows in the paragraph's line is lost.
* C78: StemV exceeds the intended range for weights above 800.
* C75: the last word of a passage is not kerned with the space before it.
* C73: text in an embedded font that begins with a line break cannot be extracted.
* C74: nor can a paragraph whose first word changes from one font to an embedded one.

## Tests against wrong programs

`seeded/run.py` applies the edits in `seeded/batch*.py` to a scratch copy, rebuilds,
and reports which theorems fail; `seeded/LOG.jsonl` has one line per attempt and
says what was tightened.

## Per property

| id | property | modelled code and proof | theorems | status |
|---|---|---|---|---|
| C01 | Literal strings survive the PDF reader | `LiteralStr.write`/`HexString.write` as functions to bytes; an independent reader with a nesting counter; induction over the bytes | `C01_literal_string_round_trip` (Properties_Atoms.v) | proved.  |
| C02 | Hex strings survive the PDF reader | `LiteralStr.write`/`HexString.write` as functions to bytes; an independent reader with a nesting counter; induction over the bytes | `C02_hex_string_round_trip` (Properties_Atoms.v) | proved.  |
| C03 | Every atom tree survives the PDF reader | all `write` methods over atom trees; a recursive-descent reader; induction over trees | `C03_atom_round_trip` (Properties_Atoms.v) | proved.  |
| C04 | Real numbers are printed as legal PDF numbers, to six significant digits | `%g` as exact rational arithmetic; the value of the printed token against the number | `C04_real_legal_and_accurate_partial`, `C04_real_plain_range`, `C04_real_exponent_refuted` (Properties_Atoms.v) | partial. The full statement is false of the code: %g uses exponent notation for |x| >= 999999.5 and for small |x|; proved for all numbers printed without exponent, refuted outside. |
| C05 | sanitize_name always yields one PDF name token | `sanitize_name`; a name tokenizer; case analysis per byte | `C05_sanitize_name_token_partial`, `C05_sanitize_name_refuted` (Properties_Atoms.v) | partial. The full statement is false of the code: PDF delimiters are kept. Proved for all inputs without delimiter; refuted for all inputs with one. |
| C06 | Cross-reference offsets are exact | `atoms.write`; a reader that starts from `startxref`; prefix sums of chunk lengths, then C03 at each offset | `C06_xref_offsets_exact` (Properties_Atoms.v) | proved.  |
| C07 | A PDF reader recovers every object from the file | `atoms.write`; a reader that starts from `startxref`; prefix sums of chunk lengths, then C03 at each offset | `C07_file_round_trip`, `C07_header` (Properties_Atoms.v) | proved.  |
| C08 | Document without pages is refused | `document.py`, `page.py`, `resources.py`, `layout/pages.py` as generators; one record `finished` of everything known about a successful write, then induction over pages and fonts | `C08_no_pages` (Properties_Document.v) | proved. An empty document raises; no other raises this error (every AutoPage yields at least one page). |
| C09 | Object ids are unique and contiguous | `document.py`, `page.py`, `resources.py`, `layout/pages.py` as generators; one record `finished` of everything known about a successful write, then induction over pages and fonts | `C09_object_ids`, `C09_C06_document_xref` (Properties_Document.v) | proved.  |
| C10 | No dangling reference | `document.py`, `page.py`, `resources.py`, `layout/pages.py` as generators; one record `finished` of everything known about a successful write, then induction over pages and fonts | `C10_references` (Properties_Document.v) | proved.  |
| C11 | The page tree lists exactly the pages in order | `document.py`, `page.py`, `resources.py`, `layout/pages.py` as generators; one record `finished` of everything known about a successful write, then induction over pages and fonts | `C11_page_tree` (Properties_Document.v) | proved.  |
| C12 | Automatic pages use the template of their own page number | `document.py`, `page.py`, `resources.py`, `layout/pages.py` as generators; one record `finished` of everything known about a successful write, then induction over pages and fonts | `C12_page_numbers` (Properties_Document.v) | proved. With C11, the k-th page object has size, rotation and drawings of template(k). |
| C13 | Every font used is declared | `document.py`, `page.py`, `resources.py`, `layout/pages.py` as generators; one record `finished` of everything known about a successful write, then induction over pages and fonts | `C13_fonts_declared`, `C13_keys_partial`, `C13_keys_refuted` (Properties_Document.v) | partial. Declared: proved in full. Unique keys: refuted for Symbol and ZapfDingbats, whose four variants share an id; proved for all other fonts, and that duplicates have equal values. |
| C14 | Embedded fonts: text can be recovered from the codes | `Subset` with its code table; invariant over any history of `encode`; an independent CMap reader | `C14_embedded_text_recoverable` (Properties_Fonts.v) | proved.  |
| C15 | Embedded fonts: width and glyph tables are indexed by code | `Subset` with its code table; invariant over any history of `encode`; an independent CMap reader | `C15_tables_indexed_by_code` (Properties_Fonts.v) | proved.  |
| C16 | UTF-16BE hex is a faithful encoding | `Subset` with its code table; invariant over any history of `encode`; an independent CMap reader | `C16_utf16be_hex`, `C16_code_bytes` (Properties_Fonts.v) | proved.  |
| C17 | ToUnicode blocks respect the 100-entry limit | `Subset` with its code table; invariant over any history of `encode`; an independent CMap reader | `C17_block_limit_partial`, `C17_block_limit_refuted` (Properties_Fonts.v) | partial. False of the code: there is always one block; proved up to 100 characters, refuted for every larger set. |
| C18 | Builtin fonts encode one byte per character | cp1252 codec table; finite check plus induction | `C18_builtin_encode` (Properties_Fonts.v) | proved.  |
| C19 | Style combination is a right-biased monoid | `Style` algebra; mutual induction over span trees with the set of pending commands | `C19_style_or_fields`, `C19_style_monoid`, `C19_style_action` (Properties_Style.v) | proved.  |
| C20 | Nested spans get exactly their own style | `Style` algebra; mutual induction over span trees with the set of pending commands | `C20_nested_spans`, `C20_span_returns` (Properties_Style.v) | proved. For any number type whose equality is identity (exact_eq); exact rationals qualify. |
| C21 | Squashing commands preserves their effect | commands as functions on states; induction; witness with nested chains | `C21_squash_simple_partial`, `C21_squash_style_diff`, `C21_squash_chains_refuted` (Properties_Style.v) | partial. False of the code for nested chains (refuted with a witness); proved for all lists of non-chain commands, which covers everything styles produce. |
| C22 | Newlines split text exactly | `splitlines` and `max_lead` against a decoration of every character with its state | `C22_splitlines`, `C22_no_character_lost` (Properties_Style.v) | proved.  |
| C23 | Leading is that of the largest text present | `splitlines` and `max_lead` against a decoration of every character with its state | `C23_max_lead`, `C23_max_lead_no_text` (Properties_Style.v) | proved.  |
| C24 | Word parsing loses no text | `parse.py`; the loop invariant relates remaining passages to remaining decorated characters | `C24_words_total`, `C24_words_keep_text_partial`, `C24_words_keep_text_refuted` (Properties_Words.v) | partial. False of the code: an empty passage after a word boundary makes the parser drop everything after it. Proved for all passages where that does not happen; refuted for every text of the other kind. |
| C25 | Word parsing preserves the style of every character | `parse.py`; the loop invariant relates remaining passages to remaining decorated characters | `C25_words_keep_style_partial`, `C25_words_keep_style_nonempty`, `C25_words_keep_style_refuted` (Properties_Text.v, Properties_Words.v) | partial. Full for passages with text. False when a string without text separates two changes of several settings each: the second replaces the first (the defect of C21); in general proved under the hypothesis that merging loses nothing. |
| C26 | Breaking a word into syllables loses no text | `into_syllables`, the vendored hyphenator for any trie, `_pyphenate`; induction over runs and points | `C26_syllables`, `C26_never_hyphenate` (Properties_Words.v) | proved.  |
| C27 | The fallback hyphenator partitions words | `into_syllables`, the vendored hyphenator for any trie, `_pyphenate`; induction over runs and points | `C27_partitions`, `C27_splits`, `C27_short_words`, `C27_two_letters`, `C27_lowercase_refuted` (Properties_Hyphen.v) | proved. The refuted theorem shows the stated length hypothesis on lowercasing is needed. |
| C28 | pyphen positions partition the word | `into_syllables`, the vendored hyphenator for any trie, `_pyphenate`; induction over runs and points | `C28_pyphen_partitions`, `C28_no_positions`, `C28_pyphen_nonempty` (Properties_Hyphen.v) | proved.  |
| C29 | Kerned output shows exactly the encoded text | `kern`, `_encode_kerning`, widths of fragments; an interpreter of TJ arrays | `C29_tj_array`, `C29_tj_of_fragment` (Properties_Words.v) | proved.  |
| C30 | Kerning pairs are looked up at the right positions | `kern`, `_encode_kerning`, widths of fragments; an interpreter of TJ arrays | `C30_kern_positions` (Properties_Fonts.v) | proved.  |
| C31 | Measured width equals displayed width | `kern`, `_encode_kerning`, widths of fragments; an interpreter of TJ arrays | `C31_width_is_displayed`, `C31_indent_extend` (Properties_Words.v) | proved.  |
| C32 | Hyphenation splits a word faithfully and fits | `Word.hyphenate`; loop invariant over the syllables tried | `C32_hyphenate_keeps_text`, `C32_hyphenate_fits`, `C32_hyphenate_maximal` (Properties_Words.v) | proved. Maximality: the next longer part never fits; no longer part at all fits when syllables do not shrink the word. |
| C33 | Hyphenation never fails when the line breaker asks for it | `Word.hyphenate`; loop invariant over the syllables tried | `C33_hyphenate_total` (Properties_Words.v) | proved.  |
| C34 | First-fit typesetting loses no text | `firstfit.py`; induction over columns with the text still to be placed | `C34_firstfit_keeps_text` (Properties_Firstfit.v) | proved. any arithmetic; also: words stay executable in order and the end state is kept; justification included |
| C35 | First-fit lines fit their column | `firstfit.py`; induction over columns with the text still to be placed | `C35_firstfit_lines_fit` (Properties_Firstfit.v) | proved. exact rationals; also: the width recorded for a line is the displayed width |
| C36 | First-fit columns are not overfilled | `firstfit.py`; induction over columns with the text still to be placed | `C36_firstfit_room` (Properties_Firstfit.v) | proved. exact rationals, line height > 0 |
| C37 | First-fit terminates | `firstfit.py`; induction over columns with the text still to be placed | `C37_firstfit_terminates_partial`, `C37_firstfit_total_partial`, `C37_firstfit_terminates_refuted` (Properties_Firstfit.v) | partial. the full claim is false: with columns of negative height layout never ends; proved for heights >= 0 (any arithmetic: no divergence; exact rationals: success) |
| C38 | First-fit avoids orphans | `firstfit.py`; induction over columns with the text still to be placed | `C38_no_orphan_at_end`, `C38_no_orphan_at_start` (Properties_Firstfit.v) | proved.  |
| C39 | First-fit justification fills the column exactly | `firstfit.py`; induction over columns with the text still to be placed | `C39_firstfit_justified` (Properties_Firstfit.v) | proved. exact rationals |
| C40 | Optimum fit returns a partition of the text | `knuth_plass.py`; invariant on the active nodes; dynamic programming: every feasible sequence is matched by a node that is no worse | `C40_breaks_partition` (Properties_KnuthPlass.v) | proved. any arithmetic |
| C41 | Optimum fit respects the tolerance | `knuth_plass.py`; invariant on the active nodes; dynamic programming: every feasible sequence is matched by a node that is no worse | `C41_tolerance`, `C41_ratio_fills` (Properties_KnuthPlass.v) | proved. the ratio's meaning in exact rationals |
| C42 | Optimum fit is optimal | `knuth_plass.py`; invariant on the active nodes; dynamic programming: every feasible sequence is matched by a node that is no worse | `C42_optimal_partial`, `C42_optimal_exact_partial`, `C42_no_hyphens_stays`, `C42_widths`, `C42_optimal_refuted` (Properties_KnuthPlass.v) | partial. the full claim is false: when a hyphen is wider than the syllable after it, NoFeasibleBreaks is raised although one line fits; proved when adding a fragment to an overfull line leaves it overfull, which holds for fragments of non-negative widths without hyphens |
| C43 | Optimal paragraphs always succeed when fragments fit | `optimum.py`; links boxes to the widths of the lines built from them; measure for the repair loop | `C43_ragged_succeeds`, `C43_justified_succeeds`, `C43_ragged_fails` (Properties_Optimum.v) | proved. exact rationals; between the two ragged cases (columns of different widths, a fragment that fits some) either may happen |
| C44 | Optimum ragged lines fit their column | `optimum.py`; links boxes to the widths of the lines built from them; measure for the repair loop | `C44_ragged_lines_fit` (Properties_Optimum.v) | proved. exact rationals, heights >= 0 |
| C45 | Optimum typesetting loses no text | `optimum.py`; links boxes to the widths of the lines built from them; measure for the repair loop | `C45_optimum_keeps_text`, `C45_optimum_keeps_style_partial`, `C45_optimum_keeps_style_refuted` (Properties_Optimum.v) | partial. the text claim is proved for any arithmetic; the style after each line is kept except when a space alone on a line carries a style change (refuted there) |
| C46 | Optimum: lines are broken for the width of the column they land in | `optimum.py`; links boxes to the widths of the lines built from them; measure for the repair loop | `C46_lines_in_their_columns`, `C46_room_partial`, `C46_room_refuted` (Properties_Optimum.v) | partial. proved for heights >= 0; false for a first column of negative height |
| C47 | Optimum justification fills the column exactly | `optimum.py`; links boxes to the widths of the lines built from them; measure for the repair loop | `C47_justified_lines_partial`, `C47_justified_lines_refuted` (Properties_Optimum.v) | partial. exact rationals; false exactly when the spaces would have to double |
| C48 | Optimum layout terminates | `optimum.py`; links boxes to the widths of the lines built from them; measure for the repair loop | `C48_optimum_terminates` (Properties_Optimum.v) | proved. any arithmetic |
| C49 | Filling pages keeps every column once and in order | `layout/*.py`, `typeset/layout.py`; streams of columns; contracts of blocks composed over pages; operators interpreted | `C49_fill_pages`, `C49_columns_in_order` (Properties_Layout.v) | proved. any arithmetic |
| C50 | A paragraph only adds to the columns it is given | `layout/*.py`, `typeset/layout.py`; streams of columns; contracts of blocks composed over pages; operators interpreted | `C50_paragraph_adds` (Properties_Layout.v) | proved. any arithmetic |
| C51 | A rule only adds to the columns it is given and stays inside | `layout/*.py`, `typeset/layout.py`; streams of columns; contracts of blocks composed over pages; operators interpreted | `C51_rule_partial`, `C86_rule`, `C51_rule_refuted`, `C51_text_lost_refuted` (Properties_Layout.v, Properties_Scene.v) | partial. true (exact rationals) for a rule that fits; whenever it does not fit, the column is emitted twice and the rule lies outside the box: refuted for all such cases, with an example on pages; and text after such a rule can be lost |
| C52 | Blocks are stacked downwards without overlap | `layout/*.py`, `typeset/layout.py`; streams of columns; contracts of blocks composed over pages; operators interpreted | `C52_stacked`, `C52_on_pages` (Properties_Layout.v) | proved. exact rationals; the second theorem is about every column on the pages AutoPage makes from paragraphs |
| C53 | Automatic pages contain all content once and in order | `layout/*.py`, `typeset/layout.py`; streams of columns; contracts of blocks composed over pages; operators interpreted | `C53_pages`, `C53_text_firstfit`, `C53_text`, `C53_styles` (Properties_Layout.v) | proved. structure: any arithmetic, any paragraphs; text level: for strings that do not begin with a line break (otherwise C55's defect applies); first-fit with styles in any arithmetic; both algorithms in exact rationals when columns are as high as a line, text always, styles if (with optimal line breaks) no space stands alone at the end of a string or line (otherwise the change of style after it can be lost: C45, C54_optimal_refuted) |
| C54 | Paragraph text is shown in its own style | `layout/*.py`, `typeset/layout.py`; streams of columns; contracts of blocks composed over pages; operators interpreted | `C54_paragraph_style_partial`, `C54_optimal_partial`, `C54_paragraph_style_refuted`, `C54_optimal_refuted` (Properties_Layout.v) | partial. the full claim is false for the first word of a column, and with optimal line breaks after a space that stands alone; proved for first-fit in any arithmetic, and for both algorithms in exact rationals without such spaces: everything after (a part of) the first word of each column is shown as wanted, and everything if the first word does not change the style |
| C55 | Positioned text is shown in its own style | `draw.Text`, `render_text`; operators interpreted; a grammar of operator levels | `C55_text_style_partial`, `C55_constructor`, `C55_text_style_refuted`, `C55_empty_string_refuted` (Properties_Draw.v, Properties_Text.v) | partial. the full claim is false: a string that begins with a line break in a new style is encoded for the old font, or is lost; proved (line by line) when no string is empty or begins with a line break |
| C56 | Lines are placed according to the alignment | `draw.Text`, `render_text`; operators interpreted; a grammar of operator levels | `C56_line_positions`, `C56_text_drawings` (Properties_Text.v) | proved. exact rationals; for Text drawings also: the width of a line is the displacement of what it shows |
| C57 | Shape drawings paint what was asked | `draw.py` shapes; path interpreter; Bezier polynomials | `C57_line`, `C57_rect`, `C57_polyline`, `C57_ellipse`, `C57_circle`, `C57_constructors` (Properties_Draw.v) | proved. exact rationals where arithmetic matters |
| C58 | Ellipses stay in their box and touch it | `draw.py` shapes; path interpreter; Bezier polynomials | `C58_ellipse_in_box`, `C58_ellipse_accurate` (Properties_Draw.v) | proved. exact rationals; the curve is within 0.03 percent of the true ellipse |
| C59 | Points given as XY are accepted wherever tuples are | `draw.py` shapes; path interpreter; Bezier polynomials | `C59_polyline_points_partial`, `C59_polyline_points_refuted`, `C59_polyline_points_accepted` (Properties_Draw.v) | partial. the full claim is false: Polyline leaves points given as XY/tuple mixed as they are; see the refuted theorem |
| C60 | Colour parsing yields colours in range | `common.py`, `page.py`; case analysis | `C60_hex_colours_partial`, `C60_accepted_range_partial`, `C60_ascii_components`, `C60_triples`, `C60_colours_refuted` (Properties_Common.v) | partial. the full claim is false: odd hex strings and out-of-range numbers are accepted (refuted); proved for well-formed strings and in-range tuples |
| C61 | Margin shorthand follows CSS | `common.py`, `page.py`; case analysis | `C61_margin_shorthand`, `C61_margin_number` (Properties_Common.v) | proved.  |
| C62 | The default column is the page minus its margins | `common.py`, `page.py`; case analysis | `C62_default_page`, `C62_default_column`, `C62_explicit_columns`, `C62_page_add` (Properties_Common.v, Properties_Plain.v) | proved.  |
| C63 | All ways of writing a document give the same bytes | the three targets of `Document.write` over a small file system | `C63_same_bytes` (Properties_Document.v) | proved.  |
| C64 | A failed write leaves an existing file intact | the three targets of `Document.write` over a small file system | `C64_failed_write_refuted`, `C64_every_failure_refuted` (Properties_Document.v) | partial. Refuted, as expected: the file is opened before anything is rendered; after every failure the path holds the header and what was written up to then (the other files are intact). |
| C65 | XY arithmetic | `common.py`, `page.py`; case analysis | `C65_componentwise`, `C65_parse`, `C65_indexing`, `C65_arithmetic` (Properties_Common.v) | proved.  |
| C66 | Embedded fonts record the widths used for layout | width tables of embedded and standard fonts; finite tables checked by computation | `C66_widths_partial`, `C66_integer`, `C66_widths_refuted` (Properties_Builtins.v) | partial. Refuted for fractional widths (usual for fonts with 2048 units per em); proved: the error is less than one unit, and none for integral widths. |
| C67 | Text in standard fonts is measured as the character that is shown | width tables of embedded and standard fonts; finite tables checked by computation | `C67_measured_as_shown_partial`, `C67_measured_as_shown_refuted` (Properties_Builtins.v) | partial. Refuted for 19 characters outside cp1252 and for the no-break space; proved for all other characters, in terms of the tables in the code. That the tables have the real metrics of the fonts is not in the code. |
| C68 | Kerning in the standard fonts never reverses the direction of text | width tables of embedded and standard fonts; finite tables checked by computation | `C68_kerning_keeps_direction`, `C68_charkern` (Properties_Builtins.v) | proved. Finite tables, generated from the source; all characters. |
| C69 | Lines are aligned by the width they show | the widths recorded by both algorithms against the displacement of what is shown | `C69_optimum_width_partial`, `C69_optimum_width_refuted`, `C35_firstfit_lines_fit` (Properties_Firstfit.v, Properties_Optimum.v) | partial. true for first-fit (second part of C35); the optimal algorithm records the width with the removed space and without the added hyphen |
| C70 | Operators stand in the order the standard prescribes | `draw.Text`, `render_text`; operators interpreted; a grammar of operator levels | `C70_text_order`, `C70_drawing_order_partial`, `C70_drawing_order_refuted` (Properties_Text.v) | partial. text blocks and colourless shapes; false for every coloured shape |
| C71 | Paragraphs stay inside their columns | `layout/*.py`, `typeset/layout.py`; streams of columns; contracts of blocks composed over pages; operators interpreted | `C71_inside_columns` (Properties_Layout.v) | proved. exact rationals; both algorithms |
| C72 | The file shows its pages to a PDF reader | an independent reader (ReaderSpec: file, page tree, fonts with ToUnicode, content streams) run on the bytes of `write_iter`; ContentOps/ContentText: parsing of the content stream; ReaderDoc: the object graph; Properties_Mixed: paragraphs in several fonts, via C54 | `C72_pages_as_read` (Properties_Reader.v) | proved. Hypotheses: numbers that %g prints plainly (see C04), text in Unicode, encoded for the font it is shown in (see C54, C55), font files that can be embedded; zlib is any compression with an inverse. |
| C73 | The text can be extracted from the file | an independent reader (ReaderSpec: file, page tree, fonts with ToUnicode, content streams) run on the bytes of `write_iter`; ContentOps/ContentText: parsing of the content stream; ReaderDoc: the object graph; Properties_Mixed: paragraphs in several fonts, via C54 | `C73_text_extracted_partial`, `C73_drawings_extracted`, `C73_standard_fonts`, `C73_one_font_partial`, `C73_refuted` (Properties_Reader.v) | partial. Refuted for a text in an embedded font that begins with a line break (the first word is encoded for one font and shown in another). Proved: whenever strings are encoded for the font in effect; for all drawings whose strings begin with text; for all documents in the standard fonts; for all documents whose paragraphs are each in one font, embedded or not. |
| C74 | From paragraphs to the text of the file | an independent reader (ReaderSpec: file, page tree, fonts with ToUnicode, content streams) run on the bytes of `write_iter`; ContentOps/ContentText: parsing of the content stream; ReaderDoc: the object graph; Properties_Mixed: paragraphs in several fonts, via C54 | `C74_paragraphs_extracted_partial`, `C74_mixed_fonts_partial`, `C74_refuted` (Properties_Mixed.v, Properties_Reader.v) | partial. In exact arithmetic, like C53. Proved for paragraphs that are each in one font (embedded or not) or in standard fonts, and for paragraphs in any fonts on pages where no column begins with a word that changes the style (with optimal line breaks also: no space stands alone, see C54); false for a paragraph whose first word changes to an embedded font (its start is encoded for one font and shown in the other): refuted. |
| C75 | Text is kerned by the font's table | KernSpec: adjustments of the characters of words against the pairwise kerning of the styled text; induction over syllables, segments and passages | `C75_words_kerned_partial`, `C75_one_style_partial`, `C75_kerning_refuted` (Properties_Kern.v) | partial. Refuted with the metrics of Helvetica: in 'go To' the T is not kerned with the space. Proved: within words always; every word with the end of the previous word or with nothing; text in one style that ends at a break, as a whole. Exact arithmetic; passages without text excluded. |
| C76 | The built-in hyphenator is Liang's algorithm | the tree as a finite map; values as maxima over occurrences; the package's data in HyphenData (generated), checked by computation | `C76_liang`, `C76_exceptions`, `C76_english` (Properties_Liang.v) | proved.  |
| C77 | Embedded fonts are kerned as the font prescribes | Python dictionaries as association lists; the reader's result in closed form (last listed pair, else first class value), compared with a small OpenType interpreter | `C77_total`, `C77_kerning_partial`, `C77_missing`, `C77_kerning_refuted` (Properties_Gpos.v) | partial. Refuted in three ways: two lookups that both adjust a pair (the last counts instead of the sum), a glyph that serves two characters (only the last is kerned), right-to-left values (no number). Proved for usual tables (advance-only values, classes within the coverage, class 0 unkerned) for every pair dealt with once (by one subtable, or by a listed pair followed by classes in the same lookup). |
| C78 | Embedded fonts are described as their file says | widths and glyph ids through the tables of C15; roundings by linear arithmetic over Q | `C78_default_width`, `C78_shown_glyphs`, `C78_descriptor_partial`, `C78_stem_v_refuted` (Properties_TrueType.v) | partial. Everything proved except StemV: weights 100-800 stay in 50-241, weight 900 gives 265 (refuted). What fontTools makes of the file (subsetting) is data of the model. |
| C79 | On automatic pages, text stays inside its column | an invariant of columns (every block above what is left of the column, every line no wider than it) kept by adding a piece of a paragraph, through C35, C39, C44, C47 for the widths and C56 for the positions | `C79_text_inside_partial`, `C79_text_inside_refuted` (Properties_Inside.v) | partial. Proved for first-fit paragraphs with every alignment, and for optimal line breaks with left or justified alignment (there a justified line without spaces may stick out). False for optimal line breaks centred or right-aligned (the recorded width lacks the hyphen), and for justified optimal lines without spaces (a long last word is not hyphenated): refuted. |
| C80 | Documents that can be laid out are written | fuel only ever turns "not yet" into a result (Fuel), paragraphs end by C34-C48 with the invariant that columns keep room for a line (after a rule that does not fit, first-fit goes on as in a full column, LayoutRules), fonts and sizes are tracked through layout (FontsUsed); atoms only fail on numbers that are not finite | `C80_pages_are_laid_out`, `C80_writing_finishes_partial`, `C80_embedded_finishes_partial`, `C80_standard_fonts`, `C80_polyline_refuted`, `C80_wide_word_refuted`, `C80_rule_refuted` (Properties_Success.v) | partial. Exact arithmetic. Not covered: optimal paragraphs after a rule (C80_rule_refuted: with the default settings they can be an IndexError when the rule does not fit; first-fit paragraphs are covered), and ragged optimal paragraphs that change font or size. That a polyline starting with an XY is a TypeError, and that a word wider than its column is a RuntimeError with the default settings, is stated as refutations of the unrestricted claim. |
| C81 | Rounding errors lose no text | CPython's float floor division is shown to be the floor of the exact quotient below 2^50 (FloatProofs: exact remainder, two relative errors of 2^-53); the nine laws of arithmetic that layout needs (NumLaws) follow from monotonicity of rounding (NumInstances), and the invariant of C53 is proved again from these laws alone (LayoutLaws) | `C81_doubles`, `C81_room_left`, `C81_lines_fit` (Properties_Float.v) | proved. IEEE-754 binary64 by Flocq, CPython's float floor division modelled step by step; no overflow assumption: the results lie between finite numbers. These two theorems use the standard library's axioms of the real numbers |
| C82 | Units, paper sizes and colour names are what they say | Units.v; rounding of the product and the error of the literal (Flocq, relative error of round-to-nearest); sizes and colours by computation | `C82_units_doubles`, `C82_whole`, `C82_paper_sizes`, `C82_colours` (Properties_Units.v) | proved. Doubles are Flocq's binary64. |
| C83 | A paragraph with optimal line breaks is set in the best way there is | OptimalSpec describes lines as lists of pieces of the text, with no positions or sums; OptimalProofs shows, in both directions, that ways to cut the pieces are the breakings of KPSpec over the cumulative boxes (words_matches, line_ratio_of, breaking_ways, ways_breaking), and C42 does the rest | `C83_best_partial`, `C83_grows_stays`, `C83_best_refuted` (Properties_Optimal.v) | partial. False in general (C83_best_refuted: a line that fits is given up because a hyphen inside its last word is wider than the syllable after it). Proved whenever a line that is too long stays too long when extended, for which C83_grows_stays gives a condition on neighbouring pieces only (no hyphen wider than the syllable after it). Columns may have different widths: a way is judged with the widths of the columns that the actual lines are in. |
| C84 | Kerning and indentation on the lines of a paragraph | LineKernProofs: an invariant of lists of words (kq: each word is kerned as in C75) is kept by cutting words at hyphenation points, by dropping the first kerning and by pruning; induction over the steps of first-fit (steps_kern) and over the rows of the optimal algorithm (rows_kq) | `C84_first_fit_partial`, `C84_one_style_partial`, `C84_justified`, `C84_optimal_partial`, `C84_first_fit_refuted`, `C84_optimal_refuted` (Properties_LineKern.v) | partial. False in general, with the metrics of Helvetica: after a line with a word that is too wide for it, and with optimal line breaks after any line, the next line starts with its T moved left as if it followed the space on the line before; and the indentation is dropped if the first word is too wide. Proved for all other lines; for the exceptions the theorems say how the first character is moved. As in C75 a word may be kerned by itself, except in text in one style that ends at a break. Passages without text excluded. |
| C85 | Optimal line breaks avoid orphans | OptimumOrphans: all groups of lines but the last are full (groups_full), so the number of lines determines the last column and its lines (last_group); with equal widths the lines do not depend on the columns (lay_ext) and shortening moves one line over | `C85_no_orphan_at_end`, `C85_no_orphan_at_start`, `C85_columns_used_partial`, `C85_columns_used_refuted` (Properties_Orphans.v) | partial. The claims about orphans are proved. The last one is false: after a first column without room, a fresh column with room for one line only is left empty (C85_columns_used_refuted); it is proved when the columns after the first have room for two lines. The heights of columns are not negative (see C46). |
| C86 | Drawings and blocks do not affect each other | SceneSpec is a reader with one graphics state for text and paths; SceneProofs shows that two states which agree on what a text object uses show the same (teq_run), that every text object sets all of it first, and that shapes set their colours; then induction over the page | `C86_page_is_sum`, `C86_drawing_added`, `C86_rule`, `C86_text_as_viewed`, `C86_paths_as_painted` (Properties_Scene.v) | proved. For the drawings of the library (drawings defined by users can emit anything). Colours set while a path is being built are accepted by the reader of the specification (see C70). |
| C87 | What is written of a page does not depend on what follows | the generators of pages, objects and chunks distribute over append (auto_gen_app, pages_gen_app, page_objects_app, chunks_gen_app); the last page by the invariant that columns after the one being filled are empty (loop_grows) | `C87_layout`, `C87_later_items`, `C87_later_blocks` (Properties_Prefix.v) | proved. The document without the addition is one that can be written. Writes are modelled object by object. |
| C88 | First-fit lines are as full as possible | GreedySpec measures runs of the pieces of OptimalSpec; GreedyProofs shows that taking a line takes a run of pieces and leaves the others (take_line_full, with word_hyph_pieces and minimal_pieces for hyphenation), then induction over the lines (steps_full); fewest lines by comparing the positions reached after each line (fewest) | `C88_lines_full`, `C88_fewest_lines`, `C88_when_tidy` (Properties_Greedy.v) | proved. In exact arithmetic. Widths are those before justification. That a part of a line is not wider than the line is a hypothesis of the second theorem; C88_when_tidy gives a local condition for it (no hyphen wider than the syllable after it, no kerning wider than the piece before it). |
| C89 | A document made from a string can be written and read back | NumbersUsed and Printable show that every number and character on the pages comes from the styles, kerns, columns or text given (induction over words, lines, shapes, columns, pages); ShortWords bounds the width of a word by its length (all metrics of the standard fonts by forallb); PlainDoc gives the hypotheses of C80; then C80, C72, C74 | `C89_paragraphs_read_back`, `C89_string_read_back`, `C89_default_style`, `C89_empty_document`, `C89_pages_printable`, `C89_long_word_refuted` (Properties_Plain.v) | proved. In exact arithmetic, for layouts that terminate (the theorem shows that they do). Assumes that hyphenating only splits words, that inflate undoes compress, that embedded fonts (none is used) are sane. C89_paragraphs_read_back and C89_pages_printable are about any left-aligned paragraphs (first-fit ones may have words of any length). The limit on words is needed: C89_long_word_refuted. |
| C90 | In doubles, a line overruns its column by rounding errors only | RoundErr bounds the error of one operation and of a sum by half an ulp of a power of two that bounds the result (from the rounding theorems of Flocq); FloatWidths gives the error of a new slug, of adding a hyphen, of removing the kerning at its start and of indenting; FloatText that of fragments and spaces; FloatLines follows the space left through fit_words, hyph_loop and take_line (induction over the words, then over the lines); FloatPara puts them together for the words of a text. The exact widths of the specification are at the top of Properties_Round. | `C90_first_fit_rounding`, `C90_first_fit_fits`, `C90_pages_fit`, `C90_standard_fonts` (Properties_Round.v, Properties_RoundOk.v) | proved. The first theorem has the bounds as parameters, the second is the instance with numbers stated in the property. Lines before justification (justification stretches the spaces afterwards). Python 3.12 and later add with compensation in sum(): the model adds in order, as earlier versions do. |
| C91 | In doubles, laying out paragraphs and rules never fails | FloatTotal shows that the widths computed in hyph_loop are so close to the exact ones that its last subtraction must fail when the word did not fit (a hyphen is wider than the accumulated errors), hence take_line succeeds and consumes something; termination then follows as in exact arithmetic (FirstfitProofs, generalised to any sound take_line). LawTotal lifts both facts (lines are found; lines fit) from one group of words to paragraphs, columns and pages over any lawful numbers (NumLaws), using the invariants of LayoutLaws; LawRules adds rules: a column that a rule left more than full behaves like a full one, because // is then not positive (FloatRules, for doubles). ShortWords counts the fragments of short words. | `C91_first_fit_never_fails`, `C91_pages_never_fail`, `C91_strings`, `C91_standard_hyphens`, `C90_pages_fit` (Properties_RoundOk.v) | proved. The first theorem is about the lines of one piece of text, with the bounds as parameters; the second about whole pages (modest_block: paragraphs and rules), with the numbers stated in the property; C91_strings shows that any string with words of at most 32 characters and at most 3333 characters meets its hypotheses; C90_pages_fit is the bound of C90 for all lines on the pages. Hyphenators are assumed to split words into nonempty parts (all_split). |
| C92 | Wider columns never take more lines | the lines of the narrower layout (C88_lines_full) are another way to cut the text that fits in the wider columns, so C88_fewest_lines applies. | `C92_wider_columns` (Properties_Wider.v) | proved. In exact arithmetic. The condition on parts of lines is that of C88 (C88_when_tidy gives a local criterion). |
| C93 | In doubles, an optimally broken ragged line overruns its column by rounding errors only | FloatOptimum follows the running width through word_boxes and words_boxes (induction over the words): the start of a line is one of the doubles the algorithm has computed, so the errors made before it cancel; the rest is the error analysis of FloatWidths and FloatText, and rows_each (OptimumLines), which tells which boxes make up a line and that its ratio is not that of an overfull line. | `C93_ragged_rounding`, `C93_ragged_fits` (Properties_RoundOpt.v) | proved. The first theorem has the bounds as parameters, the second is the instance with the numbers of the property. Of the lines of one layout by optimum.shape, when it does not raise (C46). Justified lines are not covered: their spaces are stretched after the lines are chosen. |
| C94 | In doubles, writing a document finishes | WritesTotal proves, for any arithmetic, that writing finishes when the kerning written and the page sizes are finite; FloatWrites shows the kerning of laid out lines to be finite (NumbersUsed follows every kern through line breaking, FloatPara bounds the indented ones) and FloatJustified shows that stretching the spaces of a line keeps them finite, LawTotal and LawRules find the pages. | `C94_writing_finishes`, `C94_embedded_finishes`, `C94_infinite_size` (Properties_RoundWrite.v) | proved. The counterpart of C80 for doubles (C80 is about exact numbers, and also covers optimal paragraphs). Only operands of TJ and MediaBox can fail: other numbers are formatted with %g, which writes inf or nan. |
| C95 | Justified lines measured in doubles fill their column up to rounding | FloatLines.steps_space shows that the space recorded for a line is what its exact width leaves, within rounding errors; FloatJustify bounds the errors of dividing it by the sum of the sizes and adding it to the kerns; both are put together for the lines of a paragraph (Properties_RoundJust). | `C95_justified_fills` (Properties_RoundJust.v) | proved. The counterpart of C39 for doubles: about first-fit lines (optimal lines are scaled, not justified by this function, in doubles only C93 speaks of them). |
| C96 | Where columns lie, and on which page, does not matter for what is put in them | LayoutMoved shows that the loop over pages is one loop over the sequence of all columns (page breaks disappear), and that each step of paragraphs and rules turns columns alike inside into columns alike inside; SceneMoved runs the reader of C86 on a block and on the block moved. | `C96_where_columns_are` (Properties_Moved.v) | proved. Exact arithmetic (in doubles positions are rounded where they are). Relies on functional extensionality (standard library). For what the columns are when a rule does not fit see C51. |
| C97 | How a text is put together from strings and spans does not matter where styles are the same | Regroup compares the parser of words on a passage and on the passage cut in two (the loops are put in a form without fuel first; induction over the passages left), Recut does the same for the splitting into lines (where a cut after a line break only adds an empty passage), leading and the flattening of spans; Properties_Regroup follows the equality through layout, pages and objects to the bytes. Refuted by computing the lines of a paragraph cut inside a word, and of one with an empty string. | `C97_same_file_partial`, `C97_inside_word_refuted`, `C97_empty_refuted` (Properties_Regroup.v) | partial. Proved: the whole file is the same when, in any number of paragraphs and Text drawings (of pages and of templates), a span without effect is replaced by its contents or a string is cut (or joined) after a space, hyphen, dash or zero width space, not within spaces, where the fonts have no kerning for the two characters, and the second string does not begin with a line break, or after a line break; the second string is never empty. Refuted inside words (a word in two pieces is broken over lines at other places) and for empty strings (the text after them is lost). Exact arithmetic (only for the comparison of styles and of line heights). |
| C98 | Everything twice as large gives the same layout twice as large | ScaleWords to ScaleRender define each value of the model with all lengths times k and show, function by function (slugs, words, first-fit lines, boxes and breaks of the optimal algorithm, whose ratios and demerits stay the same, columns, pages, drawings, operators), that computing commutes with it; comparisons survive because k is above zero. | `C98_scaled`, `C98_drawings` (Properties_Scale.v) | proved. For rules and paragraphs of both algorithms, in exact arithmetic: each page and column is the scaled one, with as many blocks, the room left k times as large, and operators that are the same one by one with lengths k times as large (the strings and adjustments written in TJ arrays the same). C98_drawings: the same for drawings. |
| C99 | Colours change nothing but colours | the functions of C98 also replace the colours, so the same induction covers both; C99 is the case of the factor one. | `C99_other_colours`, `C99_drawings` (Properties_Colours.v) | proved. For one-to-one changes of colours, as the property says (where two colours become the same, commands between them are left out, so the operators are not the same one by one). Exact arithmetic (only for the comparison of colours). |
