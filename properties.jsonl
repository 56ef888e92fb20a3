{"id": "C01", "title": "Literal strings survive the PDF reader", "statement": "Any byte string written with LiteralStr is read back by a PDF literal-string reader (balanced parentheses, backslash escapes, end-of-line normalisation) as exactly the same bytes, consuming exactly the bytes written.", "quantifier": "every byte string and every continuation of the file after it", "why_tests_cant": "the escape table interacts with arbitrary byte sequences; tests sample a few", "anchors": ["src/pdfje/atoms.py:LiteralStr.write", "src/pdfje/atoms.py:_escape"]}
{"id": "C02", "title": "Hex strings survive the PDF reader", "statement": "Any byte string written with HexString is read back by a PDF hex-string reader as the same bytes, consuming exactly what was written.", "quantifier": "every byte string", "why_tests_cant": "unbounded input length", "anchors": ["src/pdfje/atoms.py:HexString.write"]}
{"id": "C03", "title": "Every atom tree survives the PDF reader", "statement": "Any finite tree of names, integers, references, reals, literal and hex strings, arrays and dictionaries (with legal name tokens and numbers printable without exponent) is read back by a PDF object parser as the same tree, whatever follows it in the file.", "quantifier": "every finite atom tree of any depth and width", "why_tests_cant": "structural induction over unbounded trees; adjacency of tokens matters for every pair of kinds", "anchors": ["src/pdfje/atoms.py:Array.write", "src/pdfje/atoms.py:Dictionary.write", "src/pdfje/atoms.py:_write_dict", "src/pdfje/atoms.py:Ref.write", "src/pdfje/atoms.py:Int.write"]}
{"id": "C04", "title": "Real numbers are printed as legal PDF numbers, to six significant digits", "statement": "A finite number is printed as a legal PDF number token whose value differs from it by at most half a unit in the sixth significant digit. (Expected to be false in general: %g switches to exponent notation, which PDF 32000-1 7.3.3 forbids.)", "quantifier": "every finite number", "why_tests_cant": "the failing magnitudes (below 1e-4, from 1e6 up) are never sampled", "anchors": ["src/pdfje/atoms.py:Real.write", "src/pdfje/typeset/state.py:SetFont", "src/pdfje/draw.py:Line.render"]}
{"id": "C05", "title": "sanitize_name always yields one PDF name token", "statement": "For every byte string, the result of sanitize_name written after '/' is a single PDF name token which decodes to the input with its non-printable bytes removed.", "quantifier": "every byte string (any font name)", "why_tests_cant": "delimiter bytes inside font names are legal input", "anchors": ["src/pdfje/atoms.py:sanitize_name", "src/pdfje/fonts/embed.py:Subset.to_objects"]}
{"id": "C06", "title": "Cross-reference offsets are exact", "statement": "For every object sequence following the documented id protocol, entry i of the emitted xref table is the byte offset at which '<i> 0 obj' starts in the emitted file, startxref is the offset of the xref keyword, and every entry is exactly 20 bytes long when the file is smaller than 10^10 bytes.", "quantifier": "every sequence of objects, any number of objects of any size", "why_tests_cant": "the offsets depend on all lengths so far", "anchors": ["src/pdfje/atoms.py:write", "src/pdfje/atoms.py:_write_trailer"]}
{"id": "C07", "title": "A PDF reader recovers every object from the file", "statement": "A reader that starts from startxref, reads the xref table, and parses each object at its recorded offset recovers exactly the objects that were written, and the trailer's Root and Size are right.", "quantifier": "every document object sequence", "why_tests_cant": "a whole-file roundtrip for every file", "anchors": ["src/pdfje/atoms.py:write", "src/pdfje/atoms.py:_write_obj", "src/pdfje/atoms.py:_write_trailer"]}
{"id": "C08", "title": "Document without pages is refused", "statement": "Document.write raises RuntimeError when the document renders no page, and does not raise it when at least one page is rendered.", "quantifier": "every document content", "why_tests_cant": "depends on all possible contents", "anchors": ["src/pdfje/document.py:_doc_objects"]}
{"id": "C09", "title": "Object ids are unique and contiguous", "statement": "The object ids of any written document are 4,5,...,N in file order followed by 1,2,3; no id is used twice and none is skipped.", "quantifier": "every list of rendered pages and every set of embedded fonts", "why_tests_cant": "any number of pages and fonts", "anchors": ["src/pdfje/document.py:_doc_objects", "src/pdfje/resources.py:Resources.to_objects", "src/pdfje/fonts/embed.py:Subset.to_objects", "src/pdfje/page.py:RenderedPage.to_atoms"]}
{"id": "C10", "title": "No dangling reference", "statement": "Every indirect reference that occurs in any object or in the trailer of a written document targets an object of that document.", "quantifier": "every document", "why_tests_cant": "any number of pages and fonts", "anchors": ["src/pdfje/document.py:_doc_objects", "src/pdfje/document.py:_write_headers", "src/pdfje/resources.py:Resources.to_atoms"]}
{"id": "C11", "title": "The page tree lists exactly the pages in order", "statement": "Kids lists the object ids of the rendered pages in order, Count is their number, and each page object points to the page tree, to the shared resources, to its own content stream, and carries its own media box and rotation.", "quantifier": "every list of rendered pages", "why_tests_cant": "any number of pages", "anchors": ["src/pdfje/document.py:_write_headers", "src/pdfje/page.py:RenderedPage.to_atoms"]}
{"id": "C12", "title": "Automatic pages use the template of their own page number", "statement": "The k-th page of the document, when produced by an AutoPage with a callable template, is built on template(k).", "quantifier": "every sequence of pages and automatic pages, with any number of pages each", "why_tests_cant": "pagenum is shared mutable state read by a lazy generator", "anchors": ["src/pdfje/document.py:_doc_objects", "src/pdfje/layout/pages.py:AutoPage.render"]}
{"id": "C13", "title": "Every font used is declared", "statement": "Every font selected (Tf) by any page's content stream is present in the resource dictionary under that name, and the resource dictionary has no duplicate keys.", "quantifier": "every document and style nesting", "why_tests_cant": "fonts are registered lazily through shared mutable state", "anchors": ["src/pdfje/resources.py:Resources.font", "src/pdfje/resources.py:Resources.to_atoms", "src/pdfje/style.py:Style.diff"]}
{"id": "C14", "title": "Embedded fonts: text can be recovered from the codes", "statement": "After any history of encode calls on an embedded font, codes are assigned densely from 0 in order of first use, different characters get different codes, each call emits two bytes per character (while at most 65536 characters are in use), and decoding any emitted bytes through the final ToUnicode map gives the original text.", "quantifier": "every history of encode calls", "why_tests_cant": "the code table is shared mutable state growing during rendering", "anchors": ["src/pdfje/fonts/embed.py:Subset.encode", "src/pdfje/fonts/embed.py:_unicode_map"]}
{"id": "C15", "title": "Embedded fonts: width and glyph tables are indexed by code", "statement": "In the font objects written for an embedded font, the i-th width and the i-th glyph entry belong to the character with code i, for every code in use.", "quantifier": "every history of encode calls", "why_tests_cant": "the tables are emitted in dictionary iteration order", "anchors": ["src/pdfje/fonts/embed.py:_encode_widths", "src/pdfje/fonts/embed.py:_encode_cid_gid_map"]}
{"id": "C16", "title": "UTF-16BE hex is a faithful encoding", "statement": "For every Unicode code point the hex digits written in the ToUnicode map are its UTF-16BE encoding (decoding the surrogate pair gives the code point back).", "quantifier": "every code point", "why_tests_cant": "1.1 million values, surrogate arithmetic", "anchors": ["src/pdfje/fonts/embed.py:_utf16be_hex"]}
{"id": "C17", "title": "ToUnicode blocks respect the 100-entry limit", "statement": "Each beginbfchar block of a ToUnicode map has at most 100 entries, as the CMap format demands. (Expected to be false.)", "quantifier": "every set of used characters", "why_tests_cant": "needs a text with more than 100 distinct characters", "anchors": ["src/pdfje/fonts/embed.py:_unicode_map"]}
{"id": "C18", "title": "Builtin fonts encode one byte per character", "statement": "Encoding text for a builtin font gives exactly one byte per character; cp1252-representable characters decode to themselves and every other character becomes '?'.", "quantifier": "every string", "why_tests_cant": "all of Unicode", "anchors": ["src/pdfje/fonts/common.py:BuiltinFont.encode"]}
{"id": "C19", "title": "Style combination is a right-biased monoid", "statement": "Style.EMPTY is neutral for |, | is associative, and in a | b each attribute is b's if set there, else a's; applying a then b to a full style equals applying a | b.", "quantifier": "every styles a, b, c", "why_tests_cant": "algebraic laws over all values", "anchors": ["src/pdfje/style.py:Style.__or__", "src/pdfje/style.py:StyleFull.__or__"]}
{"id": "C20", "title": "Nested spans get exactly their own style", "statement": "Flattening any nested Span tree yields its strings in order, and executing the emitted commands from the base state brings each string to the state of the style obtained by stacking all enclosing spans' styles; the state after a span is back to the enclosing one.", "quantifier": "every span tree of any nesting depth", "why_tests_cant": "the commands are carried through chained lazy generators across nesting levels", "anchors": ["src/pdfje/style.py:StyledMixin.flatten", "src/pdfje/style.py:Style.diff", "src/pdfje/style.py:StyleFull.diff"]}
{"id": "C21", "title": "Squashing commands preserves their effect", "statement": "Merging a list of text-state commands has the same effect on every state as executing them in order. (True for the commands produced by style differences; expected to be false when the merged commands are themselves merged ones.)", "quantifier": "every list of commands", "why_tests_cant": "overwriting by command type loses information only in rare nestings", "anchors": ["src/pdfje/typeset/state.py:Chain.squash"]}
{"id": "C22", "title": "Newlines split text exactly", "statement": "Splitting passages into lines yields, in order, exactly the text between newlines (LF or CRLF), never drops or duplicates a character, and every character keeps the state it had.", "quantifier": "every list of styled passages", "why_tests_cant": "regex positions carried across generators sharing an iterator", "anchors": ["src/pdfje/typeset/state.py:splitlines"]}
{"id": "C23", "title": "Leading is that of the largest text present", "statement": "If any text in a paragraph has a positive line height, the line height chosen for the paragraph is the largest among its passages that contain text, and that of the state reached after all of them when none does.", "quantifier": "every list of passages", "why_tests_cant": "all style combinations", "anchors": ["src/pdfje/typeset/state.py:max_lead"]}
{"id": "C24", "title": "Word parsing loses no text", "statement": "The words parsed from a line of styled passages, concatenated, are exactly the text of the passages. (Expected to be false when an empty passage follows a word boundary.)", "quantifier": "every list of passages without newlines", "why_tests_cant": "the failing shape needs an empty span at a word boundary", "anchors": ["src/pdfje/typeset/parse.py:into_words", "src/pdfje/typeset/parse.py:_parse", "src/pdfje/typeset/parse.py:_complete_word"]}
{"id": "C25", "title": "Word parsing preserves the style of every character", "statement": "Executing the leading command and then the words' own commands, each character is reached in the state its passage prescribes, and each fragment was measured in that state.", "quantifier": "every list of passages", "why_tests_cant": "interaction of commands with word boundaries", "anchors": ["src/pdfje/typeset/parse.py:_parse", "src/pdfje/typeset/parse.py:_complete_word", "src/pdfje/typeset/words.py:WithCmd"]}
{"id": "C26", "title": "Breaking a word into syllables loses no text", "statement": "For every hyphenation function that splits words into parts, the syllables of a word concatenate to the word and none of them is empty.", "quantifier": "every string and every hyphenator", "why_tests_cant": "all strings, all user-supplied callables", "anchors": ["src/pdfje/typeset/words.py:into_syllables"]}
{"id": "C27", "title": "The fallback hyphenator partitions words", "statement": "The vendored hyphenator splits any word into parts that concatenate to the word, never splits words of up to four letters, and never splits off fewer than two letters at either end of a word that is not listed as an exception (for any pattern set, when lowercasing keeps the length).", "quantifier": "every word and every pattern and exception set", "why_tests_cant": "all words", "anchors": ["src/pdfje/vendor/hyphenate.py:Hyphenator.hyphenate_word"]}
{"id": "C28", "title": "pyphen positions partition the word", "statement": "Slicing a word at any ascending list of positions yields parts that concatenate to the word; an empty list yields the whole word.", "quantifier": "every word and every ascending position list", "why_tests_cant": "all words", "anchors": ["src/pdfje/typeset/hyphens.py:_pyphenate"]}
{"id": "C29", "title": "Kerned output shows exactly the encoded text", "statement": "For every fragment the strings in its TJ array concatenate to the encoded text and every kerning adjustment stands at its own character position.", "quantifier": "every text, ascending kerning list and encoding width", "why_tests_cant": "index arithmetic over all positions", "anchors": ["src/pdfje/typeset/words.py:_encode_kerning"]}
{"id": "C30", "title": "Kerning pairs are looked up at the right positions", "statement": "The kerning of a string lists exactly the positions whose preceding character (the given previous one for position 0) and character have a nonzero table entry, in ascending order.", "quantifier": "every string, previous character and table", "why_tests_cant": "off-by-one over all strings", "anchors": ["src/pdfje/fonts/common.py:kern"]}
{"id": "C31", "title": "Measured width equals displayed width", "statement": "The width used for layout equals the horizontal displacement a PDF viewer computes for the fragment's TJ array (glyph widths minus adjustments, scaled by the font size), for fragments built by the parser and after hyphenation, indentation, kerning removal and stretching.", "quantifier": "every fragment and every operation sequence, in exact arithmetic", "why_tests_cant": "sums over arbitrary texts", "anchors": ["src/pdfje/typeset/words.py:Slug", "src/pdfje/typeset/words.py:Word", "src/pdfje/typeset/words.py:TrailingSpace"]}
{"id": "C32", "title": "Hyphenation splits a word faithfully and fits", "statement": "Hyphenating a word for a given space returns either nothing fitting, or a first part that fits the space including its hyphen plus the rest, where the first part without its hyphen followed by the rest is the word; the part is maximal.", "quantifier": "every word and every width", "why_tests_cant": "all words and widths", "anchors": ["src/pdfje/typeset/words.py:Word.hyphenate", "src/pdfje/typeset/words.py:Word.minimal_box", "src/pdfje/typeset/words.py:WithCmd.hyphenate"]}
{"id": "C33", "title": "Hyphenation never fails when the line breaker asks for it", "statement": "When a word wider than the available space is hyphenated, the 'Hyphenation not necessary' error is never raised, provided a hyphen does not have negative width, kerning included.", "quantifier": "every word and width, in exact arithmetic", "why_tests_cant": "needs all width combinations", "anchors": ["src/pdfje/typeset/words.py:Word.hyphenate", "src/pdfje/typeset/firstfit.py:take_line"]}
{"id": "C34", "title": "First-fit typesetting loses no text", "statement": "The lines produced by first-fit (with or without orphan avoidance), over all columns in order, show the paragraph's text exactly once, up to a hyphen added or one space removed at line ends.", "quantifier": "every word list, column sequence, arithmetic", "why_tests_cant": "iterator tees and undo logic over unbounded input", "anchors": ["src/pdfje/typeset/firstfit.py:take_line", "src/pdfje/typeset/firstfit.py:take_box", "src/pdfje/typeset/firstfit.py:_shape_simple", "src/pdfje/typeset/firstfit.py:_shape_avoid_orphans"]}
{"id": "C35", "title": "First-fit lines fit their column", "statement": "Every line that is not the last of the paragraph is at most as wide as its column, unless it is a single unbreakable fragment; the last line without its final space fits too.", "quantifier": "every word list and column width, in exact arithmetic", "why_tests_cant": "all widths", "anchors": ["src/pdfje/typeset/firstfit.py:take_line"]}
{"id": "C36", "title": "First-fit columns are not overfilled", "statement": "The number of lines placed in a column times the line height is at most the free height, except that a fresh column too low for one line gets exactly one line.", "quantifier": "every word list and column sequence", "why_tests_cant": "all heights", "anchors": ["src/pdfje/typeset/firstfit.py:take_box", "src/pdfje/typeset/firstfit.py:_shape_avoid_orphans"]}
{"id": "C37", "title": "First-fit terminates", "statement": "First-fit layout of a finite paragraph terminates for every column sequence. (True when columns have non-negative height; expected to be false otherwise.)", "quantifier": "every word list and column sequence", "why_tests_cant": "non-termination cannot be observed by a test", "anchors": ["src/pdfje/typeset/firstfit.py:_shape_simple", "src/pdfje/typeset/firstfit.py:_shape_avoid_orphans"]}
{"id": "C38", "title": "First-fit avoids orphans", "statement": "With orphan avoidance, when the columns are equally wide and the last column has room for two lines, a paragraph whose second-last column holds more than two lines does not leave a single line in the last one; and a paragraph that continues in the next column does not leave a single line at the bottom of a column that already has content.", "quantifier": "every word list and column sequence", "why_tests_cant": "needs all coincidences of text and column heights", "anchors": ["src/pdfje/typeset/firstfit.py:_shape_avoid_orphans"]}
{"id": "C39", "title": "First-fit justification fills the column exactly", "statement": "A justified line that is not the last of its paragraph and has at least one space has exactly the width of the column; lines without spaces and last lines are unchanged.", "quantifier": "every line, in exact arithmetic", "why_tests_cant": "all widths and font sizes", "anchors": ["src/pdfje/typeset/firstfit.py:Line.justify", "src/pdfje/typeset/words.py:TrailingSpace.stretch"]}
{"id": "C40", "title": "Optimum fit returns a partition of the text", "statement": "The breaks returned by optimum_fit have strictly ascending positions, the last one at the end of the text.", "quantifier": "every box list, line widths, tolerance and penalties", "why_tests_cant": "dynamic programming over unbounded input", "anchors": ["src/pdfje/typeset/knuth_plass.py:optimum_fit", "src/pdfje/typeset/knuth_plass.py:_EndNode.unroll"]}
{"id": "C41", "title": "Optimum fit respects the tolerance", "statement": "Every line except the last is stretched by at most the tolerance and never shrunk below -1; the last line is not stretched and shrunk by less than 1.", "quantifier": "every input", "why_tests_cant": "all inputs", "anchors": ["src/pdfje/typeset/knuth_plass.py:optimum_fit", "src/pdfje/typeset/knuth_plass.py:_optimal_end"]}
{"id": "C42", "title": "Optimum fit is optimal", "statement": "The returned breaks have the least total demerits among all feasible break sequences, and NoFeasibleBreaks is raised only when there is none. (True when an overfull line stays overfull when extended; expected to be false in general because a hyphen can be wider than the next syllable.)", "quantifier": "every box list, line widths, tolerance, penalties and competing break sequence", "why_tests_cant": "exponentially many competitors", "anchors": ["src/pdfje/typeset/knuth_plass.py:optimum_fit", "src/pdfje/typeset/knuth_plass.py:_BreakNetwork"]}
{"id": "C43", "title": "Optimal paragraphs always succeed when fragments fit", "statement": "Laying out a ragged paragraph with the optimal algorithm succeeds when every unbreakable fragment, with the hyphen it gets at a line end, fits every column, and fails with RuntimeError when one is wider than every column; a justified paragraph always succeeds.", "quantifier": "every box list and line widths", "why_tests_cant": "all inputs", "anchors": ["src/pdfje/typeset/optimum.py:find_breaks", "src/pdfje/typeset/knuth_plass.py:optimum_fit"]}
{"id": "C44", "title": "Optimum ragged lines fit their column", "statement": "With left, centre or right alignment no line of an optimal paragraph is wider than its column.", "quantifier": "every input, in exact arithmetic", "why_tests_cant": "all inputs", "anchors": ["src/pdfje/typeset/knuth_plass.py:ratio_ragged", "src/pdfje/typeset/knuth_plass.py:_optimal_end"]}
{"id": "C45", "title": "Optimum typesetting loses no text", "statement": "The lines produced by the optimal algorithm over all columns in order show the paragraph's text exactly once, up to a hyphen added or one space removed at line ends.", "quantifier": "every word list and column sequence", "why_tests_cant": "iteration, re-breaking and regrouping over unbounded input", "anchors": ["src/pdfje/typeset/optimum.py:shape", "src/pdfje/typeset/optimum.py:_into_lines_ragged", "src/pdfje/typeset/optimum.py:_lines_per_column", "src/pdfje/typeset/optimum.py:_to_boxes"]}
{"id": "C46", "title": "Optimum: lines are broken for the width of the column they land in", "statement": "The width used when breaking the i-th line is the width of the column in which the i-th line is placed, and no column gets more lines than fit (one for a too low fresh column). (Expected to be false for columns of negative free height.)", "quantifier": "every column sequence and paragraph", "why_tests_cant": "cumulative line counts mutated by orphan handling", "anchors": ["src/pdfje/typeset/optimum.py:ColumnQueue", "src/pdfje/typeset/optimum.py:shape"]}
{"id": "C47", "title": "Optimum justification fills the column exactly", "statement": "A justified line with stretchable space, other than the last, has exactly the width of its column after stretching. (Expected to be false for one exact stretch ratio.)", "quantifier": "every line, in exact arithmetic", "why_tests_cant": "one failing ratio among all reals", "anchors": ["src/pdfje/typeset/optimum.py:Line.stretch", "src/pdfje/typeset/words.py:Word.stretch_tail", "src/pdfje/typeset/knuth_plass.py:ratio_justified"]}
{"id": "C48", "title": "Optimum layout terminates", "statement": "The orphan-repair loop of the optimal algorithm terminates for every paragraph and column sequence of non-negative heights.", "quantifier": "every input", "why_tests_cant": "non-termination cannot be observed by a test", "anchors": ["src/pdfje/typeset/optimum.py:shape"]}
{"id": "C49", "title": "Filling pages keeps every column once and in order", "statement": "After a block is laid out, the completed pages followed by the remaining pages hold every column exactly once, in order, the filled columns in place of the unfilled ones; finished pages are never changed again.", "quantifier": "every page stream and every block that returns its columns in order", "why_tests_cant": "tee, peek and islice over infinite iterators", "anchors": ["src/pdfje/layout/common.py:fill_pages", "src/pdfje/layout/common.py:_fill_into", "src/pdfje/layout/common.py:PageFill.reopen_most_recent_column"]}
{"id": "C50", "title": "A paragraph only adds to the columns it is given", "statement": "Paragraph.into_columns yields a non-empty prefix of the given columns, in order, each with its earlier blocks kept and new ones appended.", "quantifier": "every paragraph and column stream", "why_tests_cant": "look-ahead through tees", "anchors": ["src/pdfje/layout/paragraph.py:Paragraph.into_columns", "src/pdfje/layout/paragraph.py:_fill_paragraph"]}
{"id": "C51", "title": "A rule only adds to the columns it is given and stays inside", "statement": "Rule.into_columns obeys the same contract and draws inside the column's box. (Expected to be false when the rule does not fit: earlier content is emitted twice.)", "quantifier": "every rule and column stream", "why_tests_cant": "needs the column to be nearly full", "anchors": ["src/pdfje/layout/rule.py:Rule.into_columns"]}
{"id": "C52", "title": "Blocks are stacked downwards without overlap", "statement": "In a column the k-th block starts exactly where the previous one ended: its top is the column's top minus the heights of all earlier blocks.", "quantifier": "every sequence of additions", "why_tests_cant": "any number of blocks", "anchors": ["src/pdfje/layout/common.py:ColumnFill.add", "src/pdfje/layout/common.py:ColumnFill.cursor"]}
{"id": "C53", "title": "Automatic pages contain all content once and in order", "statement": "The pages produced by AutoPage contain what the blocks were laid out to exactly once and in order, and there is always at least one page. When no string of the paragraphs begins with a line break (C55), their lines show the text of the paragraphs exactly once and in order (up to hyphens added and spaces removed at line ends), and in its own style (with optimal line breaking: if no space stands alone at the end of a string or line).", "quantifier": "every list of paragraphs and every page template", "why_tests_cant": "any number of blocks and pages", "anchors": ["src/pdfje/layout/pages.py:AutoPage.render"]}
{"id": "C54", "title": "Paragraph text is shown in its own style", "statement": "Interpreting the content stream of a laid-out paragraph, every character is shown in the font, size and colour of its span. (Expected to be false: the initial state of a column is taken after its first word.)", "quantifier": "every paragraph", "why_tests_cant": "needs a style change right after the first word of a column", "anchors": ["src/pdfje/typeset/layout.py:ShapedText.pre_state", "src/pdfje/typeset/layout.py:render_text", "src/pdfje/typeset/words.py:WordLike.encode_into_line"]}
{"id": "C55", "title": "Positioned text is shown in its own style", "statement": "Interpreting the content stream of a Text drawing, every character is shown in the font, size and colour of its span, and was encoded for that font. (Expected to be false after a styled empty line.)", "quantifier": "every Text drawing", "why_tests_cant": "needs a style change on an empty line", "anchors": ["src/pdfje/draw.py:into_lines", "src/pdfje/draw.py:Text.render"]}
{"id": "C56", "title": "Lines are placed according to the alignment", "statement": "Interpreting the positioning operators, line k (from 1) of a text block has its baseline k line heights below the block's top, and starts at the left edge, is centred, or ends at the right edge of the box, according to the alignment.", "quantifier": "every list of line widths, in exact arithmetic", "why_tests_cant": "relative moves accumulate over any number of lines", "anchors": ["src/pdfje/typeset/layout.py:_render_left", "src/pdfje/typeset/layout.py:_render_centered", "src/pdfje/typeset/layout.py:_render_right"]}
{"id": "C57", "title": "Shape drawings paint what was asked", "statement": "Each shape emits one well-formed path followed by one painting operator that fills iff a fill colour was given, strokes iff a stroke colour was given (with these colours), and closes iff asked; an empty polyline emits nothing.", "quantifier": "every shape, coordinates and colours", "why_tests_cant": "all combinations", "anchors": ["src/pdfje/draw.py:_finish", "src/pdfje/draw.py:Polyline.render", "src/pdfje/draw.py:Rect.render"]}
{"id": "C58", "title": "Ellipses stay in their box and touch it", "statement": "The four Bezier arcs of an ellipse form a closed curve passing through the midpoints of the bounding box's sides and every point of the curve lies in the box.", "quantifier": "every centre, width, height and curve parameter", "why_tests_cant": "all real parameters", "anchors": ["src/pdfje/draw.py:_ellipse"]}
{"id": "C59", "title": "Points given as XY are accepted wherever tuples are", "statement": "Polyline renders the same bytes whether its points are given as XY or as tuples. (Expected to be false for the first point.)", "quantifier": "every point list", "why_tests_cant": "needs an XY as first point", "anchors": ["src/pdfje/draw.py:Polyline.render"]}
{"id": "C60", "title": "Colour parsing yields colours in range", "statement": "RGB.parse of a 7-character string starting with '#' yields components n/255 with 0 <= n <= 255 equal to the hex digit pairs, or fails. (Expected to be false: int(..,16) accepts signs.)", "quantifier": "every string", "why_tests_cant": "malformed strings that int() accepts", "anchors": ["src/pdfje/common.py:RGB.parse"]}
{"id": "C61", "title": "Margin shorthand follows CSS", "statement": "Sides.parse maps 1, 2, 3 and 4 values as CSS does, is the identity on Sides, and rejects other tuple lengths.", "quantifier": "every value", "why_tests_cant": "all values", "anchors": ["src/pdfje/common.py:Sides.parse"]}
{"id": "C62", "title": "The default column is the page minus its margins", "statement": "A page without explicit columns gets one column whose box is the page rectangle reduced by the margins, and is refused when no width is left; Page.add keeps size, rotation and columns and appends the drawing.", "quantifier": "every page size and margin", "why_tests_cant": "all values", "anchors": ["src/pdfje/page.py:_column", "src/pdfje/page.py:Page.add", "src/pdfje/page.py:Column.__init__"]}
{"id": "C63", "title": "All ways of writing a document give the same bytes", "statement": "Writing to an iterator, to a path and to a file object produce the same byte sequence (for the same file id).", "quantifier": "every document", "why_tests_cant": "all documents", "anchors": ["src/pdfje/document.py:Document.write", "src/pdfje/document.py:Document._write_to_path"]}
{"id": "C64", "title": "A failed write leaves an existing file intact", "statement": "If rendering fails while writing to a path, the file that was there before is unchanged. (Expected to be false.)", "quantifier": "every document and failure point", "why_tests_cant": "crash points", "anchors": ["src/pdfje/document.py:Document._write_to_path"]}
{"id": "C65", "title": "XY arithmetic", "statement": "XY addition and subtraction are componentwise, inverse to each other, agree for XY and tuple operands; scaling distributes; flip is an involution; indexing agrees with iteration.", "quantifier": "every points", "why_tests_cant": "algebraic laws", "anchors": ["src/pdfje/common.py:XY"]}
{"id": "C66", "title": "Embedded fonts record the widths used for layout", "statement": "The widths written for an embedded font's glyphs are the widths the layout used, in thousandths of the font size. (Expected to be false: they are truncated to integers.)", "quantifier": "every font and every set of used glyphs", "why_tests_cant": "fractional widths only occur for some fonts", "anchors": ["src/pdfje/fonts/embed.py:_encode_widths", "src/pdfje/fonts/embed.py:Subset"]}
{"id": "C67", "title": "Text in standard fonts is measured as the character that is shown", "statement": "The width used for a character in a standard font is that of the glyph shown for it. (Expected to be false for characters outside cp1252, shown as '?'.)", "quantifier": "every character", "why_tests_cant": "over a million characters", "anchors": ["src/pdfje/fonts/builtins.py", "src/pdfje/fonts/common.py:BuiltinFont"]}
{"id": "C68", "title": "Kerning in the standard fonts never reverses the direction of text", "statement": "For every standard font and pair of characters, the width of the second character plus the kerning between them is not negative.", "quantifier": "every pair of characters in every standard font", "why_tests_cant": "all pairs", "anchors": ["src/pdfje/fonts/builtins.py"]}
{"id": "C69", "title": "Lines are aligned by the width they show", "statement": "The width by which a centred or right-aligned line is placed is the width of the text the line shows. (Expected to be false for the optimal algorithm.)", "quantifier": "every paragraph, in exact arithmetic", "why_tests_cant": "any line", "anchors": ["src/pdfje/typeset/optimum.py:Line", "src/pdfje/typeset/knuth_plass.py:Break", "src/pdfje/typeset/firstfit.py:Line"]}
{"id": "C70", "title": "Operators stand in the order the standard prescribes", "statement": "In the content of every drawing, operators occur only at the level where ISO 32000 (figure 9) allows them: text operators inside BT/ET, and nothing but path construction between the start of a path and its painting. (Expected to be false for coloured shapes: colours are set in between.)", "quantifier": "every drawing and text block", "why_tests_cant": "any content", "anchors": ["src/pdfje/draw.py:_finish", "src/pdfje/draw.py:Text.render", "src/pdfje/typeset/layout.py:render_text"]}
{"id": "C71", "title": "Paragraphs stay inside their columns", "statement": "On the pages made by AutoPage from paragraphs, no column is filled beyond its height, provided that every column is at least as high as a line: the heights of its blocks add up to at most the height of the column.", "quantifier": "every list of paragraphs, every page template with columns as high as a line, in exact arithmetic", "why_tests_cant": "any number of paragraphs, columns and pages", "anchors": ["src/pdfje/layout/pages.py:AutoPage.render", "src/pdfje/layout/paragraph.py:Paragraph.into_columns", "src/pdfje/layout/common.py:ColumnFill"]}
{"id": "C72", "title": "The file shows its pages to a PDF reader", "statement": "A reader that knows only the file format (cross-reference table, page tree, streams, fonts, content operators) finds in every file written the pages of the document in order, each with its size and rotation, and in its content stream exactly the operators of the page, in order and with their operands: every number as printed, every font as the one with the name of the font meant, every string as codes that this font maps to the characters meant, kerned as meant.", "quantifier": "every document, styles and fonts, and the bytes written", "why_tests_cant": "all files; the whole pipeline from document to bytes", "anchors": ["src/pdfje/document.py:Document.write", "src/pdfje/atoms.py", "src/pdfje/resources.py:Resources.to_objects", "src/pdfje/fonts/embed.py:Subset.to_objects", "src/pdfje/page.py:RenderedPage.to_atoms", "src/pdfje/typeset/state.py"]}
{"id": "C73", "title": "The text can be extracted from the file", "statement": "A reader extracts from the file, for each page, the text of the page: every string in the encoding of its font (the ToUnicode table of an embedded font, cp1252 for the standard fonts).", "quantifier": "every document, in standard and embedded fonts", "why_tests_cant": "all files; the whole pipeline from document to bytes", "anchors": ["src/pdfje/document.py:Document.write", "src/pdfje/fonts/embed.py", "src/pdfje/fonts/common.py", "src/pdfje/draw.py:Text.render"]}
{"id": "C74", "title": "From paragraphs to the text of the file", "statement": "The text extracted from the file of an AutoPage of paragraphs, in standard or embedded fonts, is, page by page, the text of the template's drawings followed by that of the paragraphs; and the latter, over all pages, is all lines of all paragraphs in order, with nothing lost, repeated or reordered (spaces at line breaks and hyphens as in C53).", "quantifier": "every list of paragraphs, every template with room for a line, both line breaking algorithms", "why_tests_cant": "any number of paragraphs, pages and columns; the whole pipeline", "anchors": ["src/pdfje/document.py:Document.write", "src/pdfje/layout/pages.py:AutoPage.render", "src/pdfje/layout/paragraph.py", "src/pdfje/typeset/firstfit.py", "src/pdfje/typeset/optimum.py", "src/pdfje/typeset/words.py"]}
{"id": "C75", "title": "Text is kerned by the font's table", "statement": "In the words made from a styled text, every character is moved against the character before it by what the font's kerning table says for that pair when both are in the same font and size, and not at all otherwise; wherever syllables, trailing spaces and style changes fall. (Expected to be false: the last word of a passage is not kerned with the space before it.)", "quantifier": "every text, styles, hyphenation function and kerning table", "why_tests_cant": "all ways in which texts can be divided", "anchors": ["src/pdfje/typeset/parse.py:into_words", "src/pdfje/typeset/words.py:Word.new", "src/pdfje/typeset/words.py:TrailingSpace.parse", "src/pdfje/fonts/common.py:kern"]}
{"id": "C76", "title": "The built-in hyphenator is Liang's algorithm", "statement": "hyphenate_word of a word of more than four letters that is not an exception breaks it exactly where the highest value proposed by any occurrence of any pattern in the dotted, lowercased word is odd, but not within the first or last two letters; an exception is broken exactly at its hyphens; and the patterns and exceptions that come with the package are well-formed, so this holds for the built-in hyphenator.", "quantifier": "every word, every list of patterns and exceptions", "why_tests_cant": "all words and pattern sets", "anchors": ["src/pdfje/vendor/hyphenate.py:Hyphenator", "src/pdfje/vendor/hyphenate.py:hyphenate_word"]}
{"id": "C77", "title": "Embedded fonts are kerned as the font prescribes", "statement": "For a font file with a well-formed GPOS table, loading the font succeeds, and for any two characters that the font has, the kerning used for layout is the adjustment that OpenType prescribes for their glyphs (the sum over the pair lookups of the kern features of the first applicable subtable), in thousandths of the font size; characters the font does not have are not kerned.", "quantifier": "all GPOS tables (any number of features, lookups, subtables, classes, pairs), all character maps, all pairs of characters", "why_tests_cant": "fonts combine listed pairs, classes and several lookups in endless ways", "anchors": ["src/pdfje/vendor/get_kerning_pairs.py: OTFKernReader, for_font", "src/pdfje/fonts/embed.py: Subset.new, Subset.charkern"]}
{"id": "C78", "title": "Embedded fonts are described as their file says", "statement": "For every character written in an embedded font, the glyph that a reader finds for its code is the glyph the font file has for that character, and the width in the file is that glyph's advance in thousandths of the em (to less than one unit); the font descriptor gives ascent, descent, cap height, italic angle and bounding box of the font rounded to integers, the flags for fixed pitch, italic and bold, and a StemV between 50 and 241 for weights from 100 to 900.", "quantifier": "all fonts (any metrics and character map), all histories of text", "why_tests_cant": "ranges over all fonts and all texts", "anchors": ["src/pdfje/fonts/embed.py: Subset.new, Subset.to_objects, _encode_flags, _encode_bbox, _encode_cap_height, _encode_stem_v, _encode_cid_gid_map"]}
{"id": "C79", "title": "On automatic pages, text stays inside its column", "statement": "On the pages made from paragraphs (in columns at least as high as a line), what a PDF reader shows for a column is inside the column's rectangle: every baseline, and every line from its start to the reader's position after it. A line may stick out only if it is a single unbreakable fragment, or by the space that ends its text.", "quantifier": "all texts, styles, alignments, fonts, page templates, and both line-breaking algorithms", "why_tests_cant": "Needs the widths of the lines, their alignment, the stacking of blocks and the room in columns together, for every text and every template; overfull lines only occur for rare combinations of words and widths.", "anchors": ["src/pdfje/layout/paragraph.py:Paragraph.into_columns", "src/pdfje/layout/common.py:ColumnFill", "src/pdfje/typeset/layout.py", "src/pdfje/typeset/firstfit.py", "src/pdfje/typeset/optimum.py"]}
{"id": "C80", "title": "Documents that can be laid out are written", "statement": "If every font size in effect is positive, a line of each paragraph is no higher than the shortest column of the template, polylines are given as pairs of coordinates, optimally broken paragraphs have a positive tolerance and (when not justified) no unbreakable piece of text wider than the narrowest column, and no embedded font has to show 65535 or more characters, then Document.write() ends without an exception after finitely many steps, with a complete file.", "quantifier": "all documents of pages with drawings and automatic pages of paragraphs, all texts and styles, all templates, all alignments and both line breaking algorithms", "why_tests_cant": "a test runs documents that are known to work; that no combination of text, style, columns and page numbers makes a loop run forever or an internal assertion, index or division fail needs a proof for all of them", "anchors": ["src/pdfje/document.py:Document.write", "src/pdfje/layout/pages.py:AutoPage.render", "src/pdfje/layout/paragraph.py:Paragraph.into_columns", "src/pdfje/typeset/firstfit.py:shape", "src/pdfje/typeset/optimum.py:shape", "src/pdfje/draw.py:Text.render", "src/pdfje/resources.py:Resources.to_objects"]}
{"id": "C81", "title": "Rounding errors lose no text", "statement": "With Python's floats (IEEE-754 double precision), on automatic pages of paragraphs broken in either way, whose columns have finite heights and room for at least one line and fewer than 2^50 lines: all text appears exactly once, in order (if no string begins with a line break: C55), whatever the rounding errors; what is left of a column never becomes negative, infinite or NaN; and the exact height of the lines put into a column never exceeds the height it had left (except one line in a column lower than a line).", "quantifier": "all texts, styles, templates, page numbers, all finite double precision sizes, line spacings and column heights, all font metrics, including infinite or undefined ones, and every outcome of the ** operator", "why_tests_cant": "a test fixes sizes whose roundings it happens to survive; there are 2^64 doubles for each size, spacing and height", "anchors": ["src/pdfje/typeset/firstfit.py:take_box", "src/pdfje/typeset/optimum.py:shape", "src/pdfje/layout/paragraph.py:Paragraph.into_columns", "src/pdfje/layout/common.py:ColumnFill.add", "src/pdfje/layout/pages.py:AutoPage.render"]}
{"id": "C82", "title": "Units, paper sizes and colour names are what they say", "statement": "inch, cm, mm and pc convert every finite double of ordinary size to points (72 to the inch, 2.54 cm to the inch, 6 picas to the inch) with a relative error of at most 2**-51, whole inches and picas exactly, and pt changes nothing; the paper sizes are those of ISO 216 and the American ones in portrait (ledger in landscape), to within a point except A0 and A1 (four points); the named colours are the CSS ones.", "quantifier": "every double between 2**-900 and 2**1000 in size", "why_tests_cant": "rounding for all doubles", "anchors": ["src/pdfje/units.py", "src/pdfje/common.py:RGB"]}
{"id": "C83", "title": "A paragraph with optimal line breaks is set in the best way there is", "statement": "The lines of a paragraph with LinebreakParams show its text cut at spaces, dashes and hyphenation points such that, among all ways to cut it in which no line (but the last) is stretched beyond the tolerance and none is shrunk by more than a third of its spaces (ragged: none is wider than its column), none has fewer demerits (badness, hyphens, consecutive hyphens, contrasting neighbours as documented); and the tolerance is the first of tolerance times 1, 2, 3, 5, 8 and infinity that allows any.", "quantifier": "every text, style, sequence of columns, alignment, tolerance and penalties (exact arithmetic); every way of breaking", "why_tests_cant": "exponentially many ways of breaking, for every text", "anchors": ["src/pdfje/typeset/optimum.py:shape", "src/pdfje/typeset/optimum.py:into_boxes", "src/pdfje/typeset/optimum.py:find_breaks", "src/pdfje/typeset/knuth_plass.py:optimum_fit"]}
{"id": "C84", "title": "Kerning and indentation on the lines of a paragraph", "statement": "On every line of a typeset paragraph each character stands where its font's kerning table puts it with respect to the character before it on that line, whatever was hyphenated, wrapped or pruned; the first line starts with the paragraph's indentation and every other line exactly at the edge of the column; and justification moves nothing but the spaces after words. (Expected to be false: some lines start with the kerning between their first character and the end of the line before.)", "quantifier": "every text, style, indentation, hyphenation function, kerning table and sequence of columns; both line breaking algorithms (exact arithmetic)", "why_tests_cant": "all ways of breaking all texts", "anchors": ["src/pdfje/typeset/words.py:WordLike.without_init_kern", "src/pdfje/typeset/words.py:Word.hyphenate", "src/pdfje/typeset/words.py:indent_first", "src/pdfje/typeset/firstfit.py:take_line", "src/pdfje/typeset/optimum.py:shape", "src/pdfje/layout/paragraph.py:Paragraph"]}
{"id": "C85", "title": "Optimal line breaks avoid orphans", "statement": "With orphan avoidance and optimal line breaks: when the columns are equally wide and the last column has room for two lines, a paragraph whose second-last column holds more than two lines does not leave a single line in the last one; a paragraph that continues in the next column does not leave a single line at the bottom of a column that already has content; and no column but the first is left empty. (The last is expected to be false for columns with room for one line.)", "quantifier": "every paragraph, sequence of columns, alignment, tolerance and penalties", "why_tests_cant": "the repair is a loop over all layouts; every text and every sequence of columns", "anchors": ["src/pdfje/typeset/optimum.py:shape", "src/pdfje/typeset/optimum.py:ColumnQueue", "src/pdfje/typeset/optimum.py:_lines_per_column"]}
{"id": "C86", "title": "Drawings and blocks do not affect each other", "statement": "What a drawing, a piece of a paragraph or a rule shows on a page (the paths painted with their colours; the text with its place, font, size and colour) does not depend on anything drawn before it on the page: the page shows what each of them shows by itself, in order, and nothing else. Adding a drawing to a page adds what the drawing shows and changes nothing else.", "quantifier": "every document, every page, every sequence of drawings and blocks on it, every state of the reader before them", "why_tests_cant": "PDF operators change a shared graphics state (text and filled shapes share a colour, text settings outlive text objects): every sequence of drawings and blocks would have to be rendered", "anchors": ["src/pdfje/draw.py:_finish", "src/pdfje/draw.py:Text.render", "src/pdfje/typeset/layout.py:render_text", "src/pdfje/layout/rule.py:ShapedRule", "src/pdfje/page.py:Page.fill"]}
{"id": "C87", "title": "What is written of a page does not depend on what follows", "statement": "Adding items at the end of a document changes none of the bytes written for the pages before: the header and the two objects of each page stay the same, also if the items added fail. Adding blocks at the end of automatic pages changes nothing about the pages before the last one; on the last one, each column keeps what is in it and may get more below.", "quantifier": "every document, every content that is added at the end, every style and font", "why_tests_cant": "every document would have to be compared with every continuation", "anchors": ["src/pdfje/document.py:_doc_objects", "src/pdfje/layout/pages.py:AutoPage.render", "src/pdfje/layout/common.py:fill_pages", "src/pdfje/atoms.py:write"]}
{"id": "C88", "title": "First-fit lines are as full as possible", "statement": "Set with first fit, a paragraph is cut only where a line may end (between words, after dashes, between syllables); every line but the last takes as much as fits in its column: with the next piece (with its hyphen if it ends inside a word, without its final space) the line would be wider than the column. Only a line that is a single piece may be wider than its column. As long as a part of a line is never wider than the line, no other way to break the paragraph into lines that fit in the same columns has fewer lines.", "quantifier": "every paragraph, all fonts, styles and hyphenators, every sequence of columns, with and without orphan avoidance and justification", "why_tests_cant": "every text, every width and every other way to break it would have to be tried", "anchors": ["src/pdfje/typeset/firstfit.py:take_line", "src/pdfje/typeset/firstfit.py:shape", "src/pdfje/typeset/words.py:Word.hyphenate", "src/pdfje/typeset/words.py:Word.minimal_box"]}
{"id": "C89", "title": "A document made from a string can be written and read back", "statement": "For every Unicode text which does not begin with a line break and whose words, with the spaces after them, are at most 30 characters long, Document(text).write() finishes, and a PDF reader that opens the file (if it is smaller than 10 GB) finds one or more pages of A4, not rotated, from which it extracts the lines of the text, once and in order; lines are cut at LF or CRLF, and where they are broken on the page they may have a hyphen added or a space removed; characters outside cp1252 read '?'. The same holds in any style with a standard font, if words of the given length fit at its size. Document() is one empty page of A4.", "quantifier": "every text, every style with a standard font, all hyphenators and document ids", "why_tests_cant": "every text and style would have to be written and read", "anchors": ["src/pdfje/document.py:Document.__init__", "src/pdfje/document.py:Document.write", "src/pdfje/layout/pages.py:AutoPage.render", "src/pdfje/layout/paragraph.py:Paragraph", "src/pdfje/page.py:Page.__init__"]}
{"id": "C90", "title": "In doubles, a line overruns its column by rounding errors only", "statement": "pdfje measures text with Python floats. Take a paragraph of text of any length in any mix of styles, laid out without optimal line breaking. Then every line put in a column, measured exactly (real arithmetic on the glyph widths, the kerning and the sizes that are written to the file, without the final space), is at most a rounding error wider than the column: less than 1/100000 point for each syllable and (twice) each word on it, for sizes of 6 to 24 points, glyphs of at most 8 em, syllables of at most 32 characters, an indentation of at most 24 points and columns of at most 10000 points. The one exception is a single syllable that does not fit the column. Without the allowance the claim is false: 'i is' in Helvetica 12 is put in a column of 14.664.", "quantifier": "every text and mix of styles, fonts and sizes in the range, every sequence of column widths, every indentation, with and without orphan control, for all rounding errors", "why_tests_cant": "An error bound covers every combination of glyph widths, kerning and additions; a test sees the errors of the lines it prints.", "anchors": ["src/pdfje/layout/paragraph.py: Paragraph.into_columns", "src/pdfje/typeset/firstfit.py: take_line, shape, take_box", "src/pdfje/typeset/words.py: Slug, Word.hyphenate, TrailingSpace, indent_first", "src/pdfje/typeset/parse.py: into_words"]}
{"id": "C91", "title": "In doubles, laying out paragraphs and rules never fails", "statement": "Paragraphs laid out without optimal line breaking are always laid out, whatever rounding does: pages are found, and no error is raised. When a word does not fit, pdfje subtracts the widths of its syllables one by one and raises RuntimeError ('Hyphenation not necessary') if they all turn out to fit after all; with rounded sums that could happen. It does not, for sizes of 6 to 24 points, glyphs of at most 8 em, hyphens that advance by at least 1/1000 em whatever they are kerned with (as in the standard fonts), syllables of at most 32 characters, words of at most 200 syllables, an indentation of at most 24 points, a line height of at least 1 point that fits the columns, and columns of at most 10000 points. This holds for every alignment, for several columns and pages, and with rules (whose margins add up to at most 10000) in between, even when a rule leaves a column more than full; unless justified, all lines on all the pages keep to the bound of C90.", "quantifier": "every list of paragraphs and rules with any mix of styles in the range, every page template, every alignment and indentation, with and without orphan control, for all rounding errors", "why_tests_cant": "The failure needs a word whose exact width and rounded width lie on different sides of the space left; tests would have to find one.", "anchors": ["src/pdfje/layout/paragraph.py: Paragraph.into_columns", "src/pdfje/layout/rule.py: Rule.into_columns", "src/pdfje/layout/pages.py: AutoPage.render", "src/pdfje/typeset/firstfit.py: take_line, shape, take_box, justify", "src/pdfje/typeset/words.py: Word.hyphenate, Slug.with_hyphen, indent_first"]}
{"id": "C92", "title": "Wider columns never take more lines", "statement": "A paragraph set with first fit in columns that are all at least as wide as those of another layout of it takes at most as many lines as there, whatever the heights of the columns and with or without orphan avoidance or justification in either; as long as every piece of the text (between places where a line may end) fits the narrower columns and a part of a line is never wider than the line.", "quantifier": "every paragraph, all fonts, styles and hyphenators, every two sequences of columns", "why_tests_cant": "A greedy algorithm can in principle lose by having more room; excluding it needs a proof over all texts and widths.", "anchors": ["src/pdfje/typeset/firstfit.py: shape, take_box, take_line", "src/pdfje/typeset/words.py: Word.hyphenate"]}
{"id": "C93", "title": "In doubles, an optimally broken ragged line overruns its column by rounding errors only", "statement": "Take a paragraph of text of any length in any mix of styles, laid out with optimal line breaking and not justified. The optimal algorithm adds up one running width for the whole paragraph and judges a line by the difference of two of its values, so one could fear that the errors of a long paragraph add up. They do not: every line put in a column, measured exactly (real arithmetic on the glyph widths, the kerning and the sizes that are written to the file), is at most a rounding error wider than the column, less than 1/100000 point for each syllable and (twice) each word on that line, and one more, under the numeric limits of C90 (and a line height of at least 1 point and columns at most 10000 points high), whatever the tolerance and the penalties. Without the allowance the claim is false.", "quantifier": "every text and mix of styles, fonts and sizes in the range, every sequence of columns, every tolerance and penalties, with and without orphan control, for all rounding errors", "why_tests_cant": "An error bound covers every combination of glyph widths, kerning and additions; a test sees the errors of the lines it prints.", "anchors": ["src/pdfje/layout/paragraph.py: Paragraph.into_columns", "src/pdfje/typeset/optimum.py: _to_boxes, into_boxes, shape, _into_lines_ragged", "src/pdfje/typeset/knuth_plass.py: optimum_fit", "src/pdfje/typeset/words.py: Slug, TrailingSpace, indent_first"]}
{"id": "C94", "title": "In doubles, writing a document finishes", "statement": "Document.write refuses a number that is not finite with an AssertionError, when it is an adjustment between glyphs or the size of a page, and writes a header before it finds out. Rounding never makes such a number. A document of pages of finite size, with drawings (polylines starting with a point that can be used, texts of any size and style), and of automatic pages of paragraphs and rules that keep to the limits of C91 (aligned or justified), is written to the end: iterating over write finishes and raises nothing. With embedded fonts this holds if every font has two-byte glyph ids and shows less than 65535 different characters. A page of infinite width is an AssertionError.", "quantifier": "every list of pages, drawings, paragraphs, rules, templates, styles, indentations and fonts in the range, for all rounding errors", "why_tests_cant": "The exception needs a particular overflow or a word that breaks wrongly by rounding; a test sees the documents it writes.", "anchors": ["src/pdfje/document.py: Document.write, _doc_objects", "src/pdfje/atoms.py: Real, Array", "src/pdfje/typeset/words.py: Slug.to_atoms, TrailingSpace.into_atoms, _encode_kerning", "src/pdfje/draw.py: Text, Polyline", "src/pdfje/layout/pages.py: AutoPage.render"]}
{"id": "C95", "title": "Justified lines measured in doubles fill their column up to rounding", "statement": "pdfje distributes the space left on a justified line over its spaces with Python floats. Of the lines of a justified paragraph (fixed-width fitting, with any hyphenation and indentation), every line but the last that has a space and is at most 10000 points wide before it is stretched is afterwards exactly as wide as its column, measured with the widths and kerns written to the file, up to 1/100000 of a point for every piece on the line (and one more): also when spaces have to be shrunk. Lines without spaces, and the last line, are the lines that are not justified.", "quantifier": "every text, style of 6 to 24 points, metrics up to 8 em, hyphenation, indentation up to 24 points, stream of columns up to 10000 points and paragraph up to 10000 pieces, for all rounding errors", "why_tests_cant": "The error depends on every rounding in the sums, the division and the products for all spaces; a test compares a few lines with a tolerance.", "anchors": ["src/pdfje/typeset/firstfit.py: take_line, Line.justify", "src/pdfje/typeset/words.py: TrailingSpace.stretch, Word.extend_tail"]}
{"id": "C96", "title": "Where columns lie, and on which page, does not matter for what is put in them", "statement": "Take two templates of pages whose columns, counted through all the pages, have the same sizes one by one, but lie elsewhere, on pages of other sizes, or are dealt out differently (two on every page, or one on every page, or any numbers). Laying out the same blocks (paragraphs of any options and rules) succeeds with both templates or fails with both with the same error. If it succeeds, the columns with the same number have the same room left and show the same marks (texts with the same fonts, sizes, colours and kerning, and rules), moved by the distance of the two columns and not otherwise; and a column that only one of the layouts has (the rest of its last page) shows nothing.", "quantifier": "every list of blocks, style, font data, pair of templates (functions from page numbers to pages) with columns of equal sizes and pair of first page numbers", "why_tests_cant": "Nothing may depend on the place of a column or on page breaks, for every text and every way of dealing columns to pages; tests use one template each.", "anchors": ["src/pdfje/layout/pages.py:AutoPage.render", "src/pdfje/layout/common.py:fill_pages", "src/pdfje/layout/common.py:ColumnFill", "src/pdfje/layout/paragraph.py:Paragraph.into_columns", "src/pdfje/layout/rule.py:Rule"]}
{"id": "C97", "title": "How a text is put together from strings and spans does not matter where styles are the same", "statement": "The text of a paragraph or of a Text drawing may be given as one string or as several, and a part of it may be wrapped in a span. Where that does not change any style it changes nothing: a span whose style sets only what holds already where it stands can be replaced by its contents, at any depth, and a string can be cut in two at any place; the document is written as the same bytes, or writing it fails in the same way. (Expected to be false for cuts inside a word, which is then no longer hyphenated or kerned as one, and for empty strings, after which text is lost: proved for cuts after a line break, and where a line can be broken and no kerning applies.)", "quantifier": "every document, style, string and place in it, span at any depth, font data and hyphenation", "why_tests_cant": "The pieces go through three loops (styles, lines, words) that each restart at every piece; only some ways of cutting some strings are tested.", "anchors": ["src/pdfje/style.py:StyledMixin.flatten", "src/pdfje/typeset/state.py:splitlines", "src/pdfje/typeset/parse.py:into_words", "src/pdfje/layout/paragraph.py:Paragraph.into_columns", "src/pdfje/draw.py:Text"]}
{"id": "C98", "title": "Everything twice as large gives the same layout twice as large", "statement": "Blocks laid out with everything k times as large (font sizes, indentations, margins of rules, pages and columns; k above zero) fail in the same way, or give as many pages with the same blocks in the same columns, broken into the same lines and showing the same strings in the same fonts and colours, where all positions, line distances, font sizes and rules' lengths are k times as large; there is no preferred unit, and no length that matters by itself. The same holds for what is drawn on pages by hand. For rules and for paragraphs of either line breaking algorithm (avoiding orphans or not, with any alignment; the parameters of the optimal one are ratios).", "quantifier": "every such sequence of blocks with any styles and spans, every page template, factor, font data and hyphenation, in exact arithmetic", "why_tests_cant": "One fixed length or unscaled quantity anywhere in measuring, breaking, justifying or placing breaks it, at sizes that tests do not use.", "anchors": ["src/pdfje/typeset/words.py", "src/pdfje/typeset/parse.py:into_words", "src/pdfje/typeset/firstfit.py:shape", "src/pdfje/typeset/optimum.py:shape", "src/pdfje/typeset/knuth_plass.py:optimum_fit", "src/pdfje/layout/paragraph.py:Paragraph.into_columns", "src/pdfje/layout/rule.py:Rule", "src/pdfje/layout/pages.py:AutoPage", "src/pdfje/draw.py"]}
{"id": "C99", "title": "Colours change nothing but colours", "statement": "Laying out the same blocks on the same pages in other colours (each colour replaced by another one, different ones by different ones: of text, spans, rules and drawings) fails in the same way, or gives as many pages with the same blocks in the same places, broken into the same lines at the same positions, and the same operators one by one, where only the operands of colour operators are replaced. The same holds for what is drawn on pages by hand.", "quantifier": "every sequence of blocks with any styles and spans, page template, drawing and one-to-one change of colours, font data and hyphenation, with both line breaking algorithms", "why_tests_cant": "Changes of colour are commands that travel with words through splitting, breaking and hyphenating: that none of these steps looks at them cannot be seen from some coloured examples.", "anchors": ["src/pdfje/typeset/state.py", "src/pdfje/typeset/parse.py:into_words", "src/pdfje/typeset/words.py", "src/pdfje/style.py", "src/pdfje/layout/paragraph.py:Paragraph.into_columns", "src/pdfje/layout/rule.py:Rule", "src/pdfje/draw.py"]}
