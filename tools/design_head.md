# A Rocq (Coq 8.16.1) model of pdfje

## Method

The model is shallow: every Python function of interest is one Gallina function
with the same branches, and exceptions are values (`res A := Ok a | Err e`).
Loops are structural recursions, or recursions on explicit fuel that return
`Err EFuel` when it runs out; the termination theorems (C37, C48) then give an
explicit amount of fuel that is always enough.  Python iterators are lists;
infinite ones (pages, columns) are functions `nat -> A`.  Generators that stop in
the middle (an exception while writing) return what was yielded so far together
with how they ended (`Document.v`).

The specification side is separate from the model and small: a PDF reader
(`PdfSpec.v`), an interpreter of the text and graphics operators
(`RenderSpec.v`, `DrawSpec.v`), "the text of a line" (`WordsSpec.v`,
`LineSpec.v`), feasible sequences of breaks (`KPSpec.v`), what a page tree
describes (`DocumentSpec.v`), …  Every property theorem is in a `Properties_*.v`
file with its name starting with the property's id, followed by an example that
shows that its hypotheses can be met by a non-trivial input, and
`Print Assumptions`.

Where the code violates a property, the theorem is named `..._refuted` and proves
the negation (for all inputs of the bad kind where possible, otherwise on a
witness); the strongest positive statement we could prove stands beside it with
the suffix `_partial`.  The manifest then says "partial" even when the two
together characterise the behaviour completely.

**Numbers.**  The code computes with Python ints and floats.  Model functions that
compute take a record of operations `Num` *without laws*: structural theorems
(nothing lost, order, styles, references, termination) hold for every such record,
so also for IEEE doubles (as far as no operation raises).  Theorems about
quantities (widths fit, justified lines fill the column, optimality, positions)
are for exact rationals (`QcNum`); rounding errors are covered by C81, C82, C90 and C91,
which are about Python's floats themselves (`Float64`: Flocq's IEEE-754 binary64, with
CPython's algorithm for `//`; checked against Python on 400 random operations,
`tools/floattest.py`; `sum` adds in order, as before Python 3.12, which adds with
compensation).  Formatting
with `%g` is modelled exactly (`Gfmt.v`: six significant digits, half to even).

**Environment.**  Font metrics, kerning tables, hyphenators, `\w`, `str.lower`,
Unicode digit/space classes, `zlib.compress`, the file id, and what fontTools
reads from a font file are universally quantified (type classes `Env`, `Uni`,
section variables): theorems hold for all of them, with the hypotheses they state.
For the standard fonts the tables in `fonts/builtins.py` themselves are in the
model (`BuiltinTables.v`, generated by `tools/mkbuiltins.py`).

## Files

| model | specification | proofs | theorems |
|---|---|---|---|
| Base, Gfmt, Atoms | PdfSpec | GfmtProofs, AtomsProofs, FileProofs, NameProofs | Properties_Atoms |
| Num, Fonts | FontSpec | FontProofs | Properties_Fonts |
| BuiltinTables, Builtins | – | – | Properties_Builtins |
| State, Style | TextSpec | StateProofs | Properties_Style |
| Words, Parse, Render | WordsSpec, RenderSpec | WordProofs, RenderProofs, WordWidth, WordOps | Properties_Words |
| Hyphen | – | – | Properties_Hyphen |
| Firstfit | LineSpec | FirstfitProofs, FirstfitWidth | Properties_Firstfit |
| KnuthPlass | KPSpec | KPProofs | Properties_KnuthPlass |
| Float64, NumLaws | | FloatProofs, NumInstances, LayoutLaws | Properties_Float |
| | OptimalSpec | OptimalProofs | Properties_Optimal |
| | LineKernSpec | LineKernProofs | Properties_LineKern |
| | | OptimumOrphans | Properties_Orphans |
| | SceneSpec | SceneProofs | Properties_Scene |
| | SceneSpec (marks moved: top of SceneMoved) | LayoutMoved, SceneMoved | Properties_Moved |
| | (regrouped, cut, clean in Regroup; top of Properties_Regroup) | Regroup, Recut | Properties_Regroup |
| | (scaled_… in ScaleLayout, larger_op in ScaleRender) | ScaleWords, ScaleText, ScaleLines, ScaleOptimum, ScaleLayout, ScaleRender | Properties_Scale |
| | (recolour_…, recoloured_op in Properties_Colours) | (the same) | Properties_Colours |
| | | | Properties_Prefix |
| | GreedySpec | GreedyProofs | Properties_Greedy, Properties_Wider |
| | (in Printable, ShortWords, PlainDoc, Properties_Plain) | NumbersUsed, Printable, ShortWords, PlainDoc | Properties_Plain |
| | (top of Properties_Round) | RoundErr, FloatLines, FloatWidths, FloatText, FloatPara, FloatTotal, FloatRules, LawTotal, LawRules, FloatOptimum, WritesTotal, FloatWrites, FloatJustify, FloatJustified | Properties_Round, Properties_RoundOk, Properties_RoundOpt, Properties_RoundWrite, Properties_RoundJust |
| Units | | | Properties_Units |
| Optimum | LineSpec | OptimumProofs, OptimumWidth, OptimumLines, OptimumTotal | Properties_Optimum |
| Common, Draw | DrawSpec | Show, TextBlock, TextPos | Properties_Common, Properties_Draw, Properties_Text |
| Layout | LayoutSpec | LayoutProofs, LayoutText, LayoutPages, LayoutRoom, LayoutStyle | Properties_Layout |
| Document | DocumentSpec | FontsUsed, DocumentProofs | Properties_Document |

## What is modelled, and what is not

| source | modelled | not modelled |
|---|---|---|
| `atoms.py` | everything except `Bool` (its `write` only raises) | the randomness of the file id (any bytes) |
| `common.py` | `XY`, `Sides`, `RGB` and their parsing, `Align`, `dictget`, iterator helpers (as list operations) | `__repr__`, `pipe`, slicing of `XY` beyond integer indices |
| `units.py` | everything | – |
| `style.py` | `Style`, `StyleFull`, `|`, `diff`, `Span`, `flatten`, parsing of style-likes | `__repr__`; the patched `__or__` of `RGB` and typefaces (they call `Style.parse`) |
| `fonts/common.py` | `TrueType`, `BuiltinTypeface`, `BuiltinFont`, `kern` | – |
| `fonts/builtins.py` | all width and kerning tables | whether they are the real metrics of the fonts |
| `fonts/embed.py` | `Subset` (codes, encoding, widths, kerning, glyph map, ToUnicode, the seven objects, the font descriptor) | what fontTools does: the tables of the file and the subsetted file are arbitrary data (`tt`, `ttf`); the branch without fontTools |
| `resources.py` | everything | – |
| `page.py`, `document.py` | everything | reading `Iterable`s given by the user that raise or have side effects |
| `draw.py` | all drawings | – |
| `layout/*.py` | everything | user-defined blocks |
| `typeset/state.py`, `parse.py`, `words.py`, `layout.py` | everything used for output | caching of `lead`; `hyphens` set to user functions that raise |
| `typeset/hyphens.py`, `vendor/hyphenate.py` | `never_hyphenate`, `_pyphenate`, `Hyphenator` for any patterns and exceptions, and with the English patterns of the package | pyphen itself |
| `typeset/firstfit.py`, `optimum.py`, `knuth_plass.py` | everything | columns after the first of negative height in `ColumnQueue` (bisect needs ascending counts) |
| `vendor/get_kerning_pairs.py` | everything, from the GPOS table as fontTools presents it | fontTools; the attributes `singlePairs`, `classPairs`, `allLeftClasses`, `allRightClasses` (never used) |

Simplifications are stated in the comment of the definition concerned.  The main
ones: `tee`d iterators are shared lists; float overflow in `**` (an
`OverflowError`) and nan/inf as *inputs* of layout are not modelled; writing is
modelled at the granularity of whole objects (`map(b"".join, ...)` in
`atoms.write` joins an object before it is yielded).

## Trusted base

* Coq's kernel (8.16.1) and `coqc`.  `vm_compute` is used for finite checks.
* **Axioms.**  None for all theorems but those of C81, C82, C90, C91, C93–C99: `Print Assumptions` says
  "Closed under the global context" (the command is repeated in the `Properties_*.v`
  files).  `C81_doubles`, `C81_lines_fit`, `C82_units_doubles`, `C82_whole` and the theorems of C90, C91 and C93–C95 speak about real numbers, through Flocq, and rest on four
  axioms of the standard library: `ClassicalDedekindReals.sig_not_dec`,
  `ClassicalDedekindReals.sig_forall_dec`,
  `FunctionalExtensionality.functional_extensionality_dep` and `Classical_Prop.classic`.
  `C96_where_columns_are`, `C97_same_file_partial`, `C98_scaled` and `C99_other_colours` use `functional_extensionality_dep` alone.
  Flocq (a library without axioms) is used there and nowhere else.  `vcheck` also lists seven entries
  `Coq.ssr.ssrunder.Under_rel.*`: these are the fields of a module type in the
  standard library's ssreflect files, loaded indirectly (`Lia`/`ssr`), on which no
  theorem here depends.
* The reading of the Python source: each definition cites file and lines.
* The specifications: `PdfSpec.v` and the operator interpreters are our reading of
  ISO 32000-1, restricted to the constructs that occur.
* `tools/mkbuiltins.py`, which copies the tables of `fonts/builtins.py`.

## Defects of the code found on the way

Each is a theorem `..._refuted` (ids are those of `properties.jsonl`).

* C04: `%g` prints numbers of at least 999999.5, and tiny ones, with an exponent,
  which is not a legal PDF number.
* C05: `sanitize_name` keeps PDF delimiters, so a font name with `(`, `/`, … breaks
  the file.
* C13: `Symbol` and `ZapfDingbats` in different weights share one resource id, so
  the resource dictionary has duplicate keys (with equal values).
* C17: the ToUnicode map has one `beginbfchar` block however many characters.
* C21, C25: squashing nested chains of commands drops commands.
* C24: an empty passage after a word boundary makes the parser drop all text after it.
* C27: the vendored hyphenator is wrong when lowercasing changes the length of a word.
* C37, C46: columns of negative height make first-fit loop forever and make the
  optimal algorithm lose lines.
* C42: the optimal algorithm raises `NoFeasibleBreaks` although breaks exist, when a
  hyphen is wider than the syllable that follows.
  C83 states this for a text: "abI" in a column where it fits, but "ab-" does not, is a
  `RuntimeError` (`C83_best_refuted`).
* C85: with optimal line breaks and orphan avoidance, a fresh column with room for one line
  is left empty after a column without room (`C85_columns_used_refuted`).
* C84: lines of a paragraph with optimal line breaks start with the kerning between their
  first character and the space before it (`C84_optimal_refuted`); first-fit lines do so
  after a word that is too wide (`C84_first_fit_refuted`), and then a first-line
  indentation is dropped as well.
* C45: a style change carried by a space alone on its line is lost.
* C47: lines whose spaces would have to double exactly are not stretched
  (`ratio != 1`).
* C51: a rule that does not fit is drawn outside its column, whose content is
  emitted twice; the room left is negative, and an optimally broken paragraph
  after it loses every line but the first.
* C25, C55: in `["foo", Span(["", Span("bar", color+spacing)], bold+color)]` the bold is lost:
  "bar" is encoded for the bold font and shown in the regular one (nested chains, C21).
* C54: the first word of a column is shown in the style *after* it; and with optimal line
  breaks, a space that stands alone (a span of one space, say) may become a line of its own, and
  the change of style after it is lost: the following text is shown in the wrong font.
* C55: text that starts with a line break in a new style is encoded for the old font.
* C59: `Polyline` rejects an `XY` as first point.
* C60: `#+1-2 3`-like strings are accepted as colours; negative components too.
* C64: writing to a path truncates the file before anything is rendered.
* C66: glyph widths of embedded fonts are truncated to integers.
* C67: nineteen characters shown as `?` (and the no-break space) are measured as
  something else.
* C69: the optimal algorithm aligns lines by a width that includes the removed space
  and excludes the added hyphen.
* C70: colour operators stand between path construction and painting, which
  ISO 32000 (figure 9) forbids.
* C77: of two lookups that adjust the same pair only the last counts; a glyph shared by
  two characters (space and no-break space) is kerned for the last only; a font with
  right-to-left pair values makes kerning raise a TypeError.
* C79: with optimal line breaks, a right-aligned hyphenated line sticks out of its column by the hyphen, and a justified line without spaces (a long last word) is not hyphenated at all and sticks out.
* C80: a Polyline whose first point is an XY raises TypeError while its page is written (the other points may be XYs); with the default (optimal, left) settings a word wider than its column raises RuntimeError and leaves a file with only a header; with the default settings a one-line paragraph after a rule that does not fit its column raises IndexError. (C89: so does Document("W" * 45) on the default page.)
* C97: a word given in two strings is broken over lines at other places than the word
  in one; after an empty string the text that follows in the paragraph's line is lost.
* C78: StemV exceeds the intended range for weights above 800.
* C75: the last word of a passage is not kerned with the space before it.
* C73: text in an embedded font that begins with a line break cannot be extracted.
* C74: nor can a paragraph whose first word changes from one font to an embedded one.

## Tests against wrong programs

`seeded/run.py` applies the edits in `seeded/batch*.py` to a scratch copy, rebuilds,
and reports which theorems fail; `seeded/LOG.jsonl` has one line per attempt and
says what was tightened.

## Per property

