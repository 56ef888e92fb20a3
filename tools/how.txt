C01 C02: `LiteralStr.write`/`HexString.write` as functions to bytes; an independent reader with a nesting counter; induction over the bytes
C03: all `write` methods over atom trees; a recursive-descent reader; induction over trees
C04: `%g` as exact rational arithmetic; the value of the printed token against the number
C05: `sanitize_name`; a name tokenizer; case analysis per byte
C06 C07: `atoms.write`; a reader that starts from `startxref`; prefix sums of chunk lengths, then C03 at each offset
C08 C09 C10 C11 C12 C13: `document.py`, `page.py`, `resources.py`, `layout/pages.py` as generators; one record `finished` of everything known about a successful write, then induction over pages and fonts
C14 C15 C16 C17: `Subset` with its code table; invariant over any history of `encode`; an independent CMap reader
C18: cp1252 codec table; finite check plus induction
C19 C20: `Style` algebra; mutual induction over span trees with the set of pending commands
C21: commands as functions on states; induction; witness with nested chains
C22 C23: `splitlines` and `max_lead` against a decoration of every character with its state
C24 C25: `parse.py`; the loop invariant relates remaining passages to remaining decorated characters
C26 C27 C28: `into_syllables`, the vendored hyphenator for any trie, `_pyphenate`; induction over runs and points
C29 C30 C31: `kern`, `_encode_kerning`, widths of fragments; an interpreter of TJ arrays
C32 C33: `Word.hyphenate`; loop invariant over the syllables tried
C34 C35 C36 C37 C38 C39: `firstfit.py`; induction over columns with the text still to be placed
C40 C41 C42: `knuth_plass.py`; invariant on the active nodes; dynamic programming: every feasible sequence is matched by a node that is no worse
C43 C44 C45 C46 C47 C48: `optimum.py`; links boxes to the widths of the lines built from them; measure for the repair loop
C49 C50 C51 C52 C53 C54 C71: `layout/*.py`, `typeset/layout.py`; streams of columns; contracts of blocks composed over pages; operators interpreted
C55 C56 C70: `draw.Text`, `render_text`; operators interpreted; a grammar of operator levels
C57 C58 C59: `draw.py` shapes; path interpreter; Bezier polynomials
C60 C61 C62 C65: `common.py`, `page.py`; case analysis
C63 C64: the three targets of `Document.write` over a small file system
C66 C67 C68: width tables of embedded and standard fonts; finite tables checked by computation
C69: the widths recorded by both algorithms against the displacement of what is shown
C72 C73 C74: an independent reader (ReaderSpec: file, page tree, fonts with ToUnicode, content streams) run on the bytes of `write_iter`; ContentOps/ContentText: parsing of the content stream; ReaderDoc: the object graph; Properties_Mixed: paragraphs in several fonts, via C54
C75: KernSpec: adjustments of the characters of words against the pairwise kerning of the styled text; induction over syllables, segments and passages
C76: the tree as a finite map; values as maxima over occurrences; the package's data in HyphenData (generated), checked by computation
C77: Python dictionaries as association lists; the reader's result in closed form (last listed pair, else first class value), compared with a small OpenType interpreter
C79: an invariant of columns (every block above what is left of the column, every line no wider than it) kept by adding a piece of a paragraph, through C35, C39, C44, C47 for the widths and C56 for the positions
C78: widths and glyph ids through the tables of C15; roundings by linear arithmetic over Q
C80: fuel only ever turns "not yet" into a result (Fuel), paragraphs end by C34-C48 with the invariant that columns keep room for a line (after a rule that does not fit, first-fit goes on as in a full column, LayoutRules), fonts and sizes are tracked through layout (FontsUsed); atoms only fail on numbers that are not finite
C81: CPython's float floor division is shown to be the floor of the exact quotient below 2^50 (FloatProofs: exact remainder, two relative errors of 2^-53); the nine laws of arithmetic that layout needs (NumLaws) follow from monotonicity of rounding (NumInstances), and the invariant of C53 is proved again from these laws alone (LayoutLaws)
C82: Units.v; rounding of the product and the error of the literal (Flocq, relative error of round-to-nearest); sizes and colours by computation
C83: OptimalSpec describes lines as lists of pieces of the text, with no positions or sums; OptimalProofs shows, in both directions, that ways to cut the pieces are the breakings of KPSpec over the cumulative boxes (words_matches, line_ratio_of, breaking_ways, ways_breaking), and C42 does the rest
C84: LineKernProofs: an invariant of lists of words (kq: each word is kerned as in C75) is kept by cutting words at hyphenation points, by dropping the first kerning and by pruning; induction over the steps of first-fit (steps_kern) and over the rows of the optimal algorithm (rows_kq)
C85: OptimumOrphans: all groups of lines but the last are full (groups_full), so the number of lines determines the last column and its lines (last_group); with equal widths the lines do not depend on the columns (lay_ext) and shortening moves one line over
C86: SceneSpec is a reader with one graphics state for text and paths; SceneProofs shows that two states which agree on what a text object uses show the same (teq_run), that every text object sets all of it first, and that shapes set their colours; then induction over the page
C87: the generators of pages, objects and chunks distribute over append (auto_gen_app, pages_gen_app, page_objects_app, chunks_gen_app); the last page by the invariant that columns after the one being filled are empty (loop_grows)
C89: NumbersUsed and Printable show that every number and character on the pages comes from the styles, kerns, columns or text given (induction over words, lines, shapes, columns, pages); ShortWords bounds the width of a word by its length (all metrics of the standard fonts by forallb); PlainDoc gives the hypotheses of C80; then C80, C72, C74
C88: GreedySpec measures runs of the pieces of OptimalSpec; GreedyProofs shows that taking a line takes a run of pieces and leaves the others (take_line_full, with word_hyph_pieces and minimal_pieces for hyphenation), then induction over the lines (steps_full); fewest lines by comparing the positions reached after each line (fewest)
C90: RoundErr bounds the error of one operation and of a sum by half an ulp of a power of two that bounds the result (from the rounding theorems of Flocq); FloatWidths gives the error of a new slug, of adding a hyphen, of removing the kerning at its start and of indenting; FloatText that of fragments and spaces; FloatLines follows the space left through fit_words, hyph_loop and take_line (induction over the words, then over the lines); FloatPara puts them together for the words of a text. The exact widths of the specification are at the top of Properties_Round.
C91: FloatTotal shows that the widths computed in hyph_loop are so close to the exact ones that its last subtraction must fail when the word did not fit (a hyphen is wider than the accumulated errors), hence take_line succeeds and consumes something; termination then follows as in exact arithmetic (FirstfitProofs, generalised to any sound take_line). LawTotal lifts both facts (lines are found; lines fit) from one group of words to paragraphs, columns and pages over any lawful numbers (NumLaws), using the invariants of LayoutLaws; LawRules adds rules: a column that a rule left more than full behaves like a full one, because // is then not positive (FloatRules, for doubles). ShortWords counts the fragments of short words.
C92: the lines of the narrower layout (C88_lines_full) are another way to cut the text that fits in the wider columns, so C88_fewest_lines applies.
C93: FloatOptimum follows the running width through word_boxes and words_boxes (induction over the words): the start of a line is one of the doubles the algorithm has computed, so the errors made before it cancel; the rest is the error analysis of FloatWidths and FloatText, and rows_each (OptimumLines), which tells which boxes make up a line and that its ratio is not that of an overfull line.
C94: WritesTotal proves, for any arithmetic, that writing finishes when the kerning written and the page sizes are finite; FloatWrites shows the kerning of laid out lines to be finite (NumbersUsed follows every kern through line breaking, FloatPara bounds the indented ones) and FloatJustified shows that stretching the spaces of a line keeps them finite, LawTotal and LawRules find the pages.
C95: FloatLines.steps_space shows that the space recorded for a line is what its exact width leaves, within rounding errors; FloatJustify bounds the errors of dividing it by the sum of the sizes and adding it to the kerns; both are put together for the lines of a paragraph (Properties_RoundJust).
C96: LayoutMoved shows that the loop over pages is one loop over the sequence of all columns (page breaks disappear), and that each step of paragraphs and rules turns columns alike inside into columns alike inside; SceneMoved runs the reader of C86 on a block and on the block moved.
C97: Regroup compares the parser of words on a passage and on the passage cut in two (the loops are put in a form without fuel first; induction over the passages left), Recut does the same for the splitting into lines (where a cut after a line break only adds an empty passage), leading and the flattening of spans; Properties_Regroup follows the equality through layout, pages and objects to the bytes. Refuted by computing the lines of a paragraph cut inside a word, and of one with an empty string.
C98: ScaleWords to ScaleRender define each value of the model with all lengths times k and show, function by function (slugs, words, first-fit lines, boxes and breaks of the optimal algorithm, whose ratios and demerits stay the same, columns, pages, drawings, operators), that computing commutes with it; comparisons survive because k is above zero.
C99: the functions of C98 also replace the colours, so the same induction covers both; C99 is the case of the factor one.
