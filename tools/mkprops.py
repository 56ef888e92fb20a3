# Generates /verif/properties.jsonl (the list of properties is the data below).
import json
P=[]
def p(id,title,statement,quantifier,why,anchors):
    P.append(dict(id=id,title=title,statement=statement,quantifier=quantifier,why_tests_cant=why,anchors=anchors))
A="src/pdfje/"
p("C01","Literal strings survive the PDF reader",
 "Any byte string written with LiteralStr is read back by a PDF literal-string reader (balanced parentheses, backslash escapes, end-of-line normalisation) as exactly the same bytes, consuming exactly the bytes written.",
 "every byte string and every continuation of the file after it","the escape table interacts with arbitrary byte sequences; tests sample a few",[A+"atoms.py:LiteralStr.write",A+"atoms.py:_escape"])
p("C02","Hex strings survive the PDF reader",
 "Any byte string written with HexString is read back by a PDF hex-string reader as the same bytes, consuming exactly what was written.",
 "every byte string","unbounded input length",[A+"atoms.py:HexString.write"])
p("C03","Every atom tree survives the PDF reader",
 "Any finite tree of names, integers, references, reals, literal and hex strings, arrays and dictionaries (with legal name tokens and numbers printable without exponent) is read back by a PDF object parser as the same tree, whatever follows it in the file.",
 "every finite atom tree of any depth and width","structural induction over unbounded trees; adjacency of tokens matters for every pair of kinds",[A+"atoms.py:Array.write",A+"atoms.py:Dictionary.write",A+"atoms.py:_write_dict",A+"atoms.py:Ref.write",A+"atoms.py:Int.write"])
p("C04","Real numbers are printed as legal PDF numbers, to six significant digits",
 "A finite number is printed as a legal PDF number token whose value differs from it by at most half a unit in the sixth significant digit. (Expected to be false in general: %g switches to exponent notation, which PDF 32000-1 7.3.3 forbids.)",
 "every finite number","the failing magnitudes (below 1e-4, from 1e6 up) are never sampled",[A+"atoms.py:Real.write",A+"typeset/state.py:SetFont",A+"draw.py:Line.render"])
p("C05","sanitize_name always yields one PDF name token",
 "For every byte string, the result of sanitize_name written after '/' is a single PDF name token which decodes to the input with its non-printable bytes removed.",
 "every byte string (any font name)","delimiter bytes inside font names are legal input",[A+"atoms.py:sanitize_name",A+"fonts/embed.py:Subset.to_objects"])
p("C06","Cross-reference offsets are exact",
 "For every object sequence following the documented id protocol, entry i of the emitted xref table is the byte offset at which '<i> 0 obj' starts in the emitted file, startxref is the offset of the xref keyword, and every entry is exactly 20 bytes long when the file is smaller than 10^10 bytes.",
 "every sequence of objects, any number of objects of any size","the offsets depend on all lengths so far",[A+"atoms.py:write",A+"atoms.py:_write_trailer"])
p("C07","A PDF reader recovers every object from the file",
 "A reader that starts from startxref, reads the xref table, and parses each object at its recorded offset recovers exactly the objects that were written, and the trailer's Root and Size are right.",
 "every document object sequence","a whole-file roundtrip for every file",[A+"atoms.py:write",A+"atoms.py:_write_obj",A+"atoms.py:_write_trailer"])
p("C08","Document without pages is refused",
 "Document.write raises RuntimeError when the document renders no page, and does not raise it when at least one page is rendered.",
 "every document content","depends on all possible contents",[A+"document.py:_doc_objects"])
p("C09","Object ids are unique and contiguous",
 "The object ids of any written document are 4,5,...,N in file order followed by 1,2,3; no id is used twice and none is skipped.",
 "every list of rendered pages and every set of embedded fonts","any number of pages and fonts",[A+"document.py:_doc_objects",A+"resources.py:Resources.to_objects",A+"fonts/embed.py:Subset.to_objects",A+"page.py:RenderedPage.to_atoms"])
p("C10","No dangling reference",
 "Every indirect reference that occurs in any object or in the trailer of a written document targets an object of that document.",
 "every document","any number of pages and fonts",[A+"document.py:_doc_objects",A+"document.py:_write_headers",A+"resources.py:Resources.to_atoms"])
p("C11","The page tree lists exactly the pages in order",
 "Kids lists the object ids of the rendered pages in order, Count is their number, and each page object points to the page tree, to the shared resources, to its own content stream, and carries its own media box and rotation.",
 "every list of rendered pages","any number of pages",[A+"document.py:_write_headers",A+"page.py:RenderedPage.to_atoms"])
p("C12","Automatic pages use the template of their own page number",
 "The k-th page of the document, when produced by an AutoPage with a callable template, is built on template(k).",
 "every sequence of pages and automatic pages, with any number of pages each","pagenum is shared mutable state read by a lazy generator",[A+"document.py:_doc_objects",A+"layout/pages.py:AutoPage.render"])
p("C13","Every font used is declared",
 "Every font selected (Tf) by any page's content stream is present in the resource dictionary under that name, and the resource dictionary has no duplicate keys.",
 "every document and style nesting","fonts are registered lazily through shared mutable state",[A+"resources.py:Resources.font",A+"resources.py:Resources.to_atoms",A+"style.py:Style.diff"])
p("C14","Embedded fonts: text can be recovered from the codes",
 "After any history of encode calls on an embedded font, codes are assigned densely from 0 in order of first use, different characters get different codes, each call emits two bytes per character (while at most 65536 characters are in use), and decoding any emitted bytes through the final ToUnicode map gives the original text.",
 "every history of encode calls","the code table is shared mutable state growing during rendering",[A+"fonts/embed.py:Subset.encode",A+"fonts/embed.py:_unicode_map"])
p("C15","Embedded fonts: width and glyph tables are indexed by code",
 "In the font objects written for an embedded font, the i-th width and the i-th glyph entry belong to the character with code i, for every code in use.",
 "every history of encode calls","the tables are emitted in dictionary iteration order",[A+"fonts/embed.py:_encode_widths",A+"fonts/embed.py:_encode_cid_gid_map"])
p("C16","UTF-16BE hex is a faithful encoding",
 "For every Unicode code point the hex digits written in the ToUnicode map are its UTF-16BE encoding (decoding the surrogate pair gives the code point back).",
 "every code point","1.1 million values, surrogate arithmetic",[A+"fonts/embed.py:_utf16be_hex"])
p("C17","ToUnicode blocks respect the 100-entry limit",
 "Each beginbfchar block of a ToUnicode map has at most 100 entries, as the CMap format demands. (Expected to be false.)",
 "every set of used characters","needs a text with more than 100 distinct characters",[A+"fonts/embed.py:_unicode_map"])
p("C18","Builtin fonts encode one byte per character",
 "Encoding text for a builtin font gives exactly one byte per character; cp1252-representable characters decode to themselves and every other character becomes '?'.",
 "every string","all of Unicode",[A+"fonts/common.py:BuiltinFont.encode"])
p("C19","Style combination is a right-biased monoid",
 "Style.EMPTY is neutral for |, | is associative, and in a | b each attribute is b's if set there, else a's; applying a then b to a full style equals applying a | b.",
 "every styles a, b, c","algebraic laws over all values",[A+"style.py:Style.__or__",A+"style.py:StyleFull.__or__"])
p("C20","Nested spans get exactly their own style",
 "Flattening any nested Span tree yields its strings in order, and executing the emitted commands from the base state brings each string to the state of the style obtained by stacking all enclosing spans' styles; the state after a span is back to the enclosing one.",
 "every span tree of any nesting depth","the commands are carried through chained lazy generators across nesting levels",[A+"style.py:StyledMixin.flatten",A+"style.py:Style.diff",A+"style.py:StyleFull.diff"])
p("C21","Squashing commands preserves their effect",
 "Merging a list of text-state commands has the same effect on every state as executing them in order. (True for the commands produced by style differences; expected to be false when the merged commands are themselves merged ones.)",
 "every list of commands","overwriting by command type loses information only in rare nestings",[A+"typeset/state.py:Chain.squash"])
p("C22","Newlines split text exactly",
 "Splitting passages into lines yields, in order, exactly the text between newlines (LF or CRLF), never drops or duplicates a character, and every character keeps the state it had.",
 "every list of styled passages","regex positions carried across generators sharing an iterator",[A+"typeset/state.py:splitlines"])
p("C23","Leading is that of the largest text present",
 "If any text in a paragraph has a positive line height, the line height chosen for the paragraph is the largest among its passages that contain text, and that of the state reached after all of them when none does.",
 "every list of passages","all style combinations",[A+"typeset/state.py:max_lead"])
p("C24","Word parsing loses no text",
 "The words parsed from a line of styled passages, concatenated, are exactly the text of the passages. (Expected to be false when an empty passage follows a word boundary.)",
 "every list of passages without newlines","the failing shape needs an empty span at a word boundary",[A+"typeset/parse.py:into_words",A+"typeset/parse.py:_parse",A+"typeset/parse.py:_complete_word"])
p("C25","Word parsing preserves the style of every character",
 "Executing the leading command and then the words' own commands, each character is reached in the state its passage prescribes, and each fragment was measured in that state.",
 "every list of passages","interaction of commands with word boundaries",[A+"typeset/parse.py:_parse",A+"typeset/parse.py:_complete_word",A+"typeset/words.py:WithCmd"])
p("C26","Breaking a word into syllables loses no text",
 "For every hyphenation function that splits words into parts, the syllables of a word concatenate to the word and none of them is empty.",
 "every string and every hyphenator","all strings, all user-supplied callables",[A+"typeset/words.py:into_syllables"])
p("C27","The fallback hyphenator partitions words",
 "The vendored hyphenator splits any word into parts that concatenate to the word, never splits words of up to four letters, and never splits off fewer than two letters at either end of a word that is not listed as an exception (for any pattern set, when lowercasing keeps the length).",
 "every word and every pattern and exception set","all words",[A+"vendor/hyphenate.py:Hyphenator.hyphenate_word"])
p("C28","pyphen positions partition the word",
 "Slicing a word at any ascending list of positions yields parts that concatenate to the word; an empty list yields the whole word.",
 "every word and every ascending position list","all words",[A+"typeset/hyphens.py:_pyphenate"])
p("C29","Kerned output shows exactly the encoded text",
 "For every fragment the strings in its TJ array concatenate to the encoded text and every kerning adjustment stands at its own character position.",
 "every text, ascending kerning list and encoding width","index arithmetic over all positions",[A+"typeset/words.py:_encode_kerning"])
p("C30","Kerning pairs are looked up at the right positions",
 "The kerning of a string lists exactly the positions whose preceding character (the given previous one for position 0) and character have a nonzero table entry, in ascending order.",
 "every string, previous character and table","off-by-one over all strings",[A+"fonts/common.py:kern"])
p("C31","Measured width equals displayed width",
 "The width used for layout equals the horizontal displacement a PDF viewer computes for the fragment's TJ array (glyph widths minus adjustments, scaled by the font size), for fragments built by the parser and after hyphenation, indentation, kerning removal and stretching.",
 "every fragment and every operation sequence, in exact arithmetic","sums over arbitrary texts",[A+"typeset/words.py:Slug",A+"typeset/words.py:Word",A+"typeset/words.py:TrailingSpace"])
p("C32","Hyphenation splits a word faithfully and fits",
 "Hyphenating a word for a given space returns either nothing fitting, or a first part that fits the space including its hyphen plus the rest, where the first part without its hyphen followed by the rest is the word; the part is maximal.",
 "every word and every width","all words and widths",[A+"typeset/words.py:Word.hyphenate",A+"typeset/words.py:Word.minimal_box",A+"typeset/words.py:WithCmd.hyphenate"])
p("C33","Hyphenation never fails when the line breaker asks for it",
 "When a word wider than the available space is hyphenated, the 'Hyphenation not necessary' error is never raised, provided a hyphen does not have negative width, kerning included.",
 "every word and width, in exact arithmetic","needs all width combinations",[A+"typeset/words.py:Word.hyphenate",A+"typeset/firstfit.py:take_line"])
p("C34","First-fit typesetting loses no text",
 "The lines produced by first-fit (with or without orphan avoidance), over all columns in order, show the paragraph's text exactly once, up to a hyphen added or one space removed at line ends.",
 "every word list, column sequence, arithmetic","iterator tees and undo logic over unbounded input",[A+"typeset/firstfit.py:take_line",A+"typeset/firstfit.py:take_box",A+"typeset/firstfit.py:_shape_simple",A+"typeset/firstfit.py:_shape_avoid_orphans"])
p("C35","First-fit lines fit their column",
 "Every line that is not the last of the paragraph is at most as wide as its column, unless it is a single unbreakable fragment; the last line without its final space fits too.",
 "every word list and column width, in exact arithmetic","all widths",[A+"typeset/firstfit.py:take_line"])
p("C36","First-fit columns are not overfilled",
 "The number of lines placed in a column times the line height is at most the free height, except that a fresh column too low for one line gets exactly one line.",
 "every word list and column sequence","all heights",[A+"typeset/firstfit.py:take_box",A+"typeset/firstfit.py:_shape_avoid_orphans"])
p("C37","First-fit terminates",
 "First-fit layout of a finite paragraph terminates for every column sequence. (True when columns have non-negative height; expected to be false otherwise.)",
 "every word list and column sequence","non-termination cannot be observed by a test",[A+"typeset/firstfit.py:_shape_simple",A+"typeset/firstfit.py:_shape_avoid_orphans"])
p("C38","First-fit avoids orphans",
 "With orphan avoidance, when the columns are equally wide and the last column has room for two lines, a paragraph whose second-last column holds more than two lines does not leave a single line in the last one; and a paragraph that continues in the next column does not leave a single line at the bottom of a column that already has content.",
 "every word list and column sequence","needs all coincidences of text and column heights",[A+"typeset/firstfit.py:_shape_avoid_orphans"])
p("C39","First-fit justification fills the column exactly",
 "A justified line that is not the last of its paragraph and has at least one space has exactly the width of the column; lines without spaces and last lines are unchanged.",
 "every line, in exact arithmetic","all widths and font sizes",[A+"typeset/firstfit.py:Line.justify",A+"typeset/words.py:TrailingSpace.stretch"])
p("C40","Optimum fit returns a partition of the text",
 "The breaks returned by optimum_fit have strictly ascending positions, the last one at the end of the text.",
 "every box list, line widths, tolerance and penalties","dynamic programming over unbounded input",[A+"typeset/knuth_plass.py:optimum_fit",A+"typeset/knuth_plass.py:_EndNode.unroll"])
p("C41","Optimum fit respects the tolerance",
 "Every line except the last is stretched by at most the tolerance and never shrunk below -1; the last line is not stretched and shrunk by less than 1.",
 "every input","all inputs",[A+"typeset/knuth_plass.py:optimum_fit",A+"typeset/knuth_plass.py:_optimal_end"])
p("C42","Optimum fit is optimal",
 "The returned breaks have the least total demerits among all feasible break sequences, and NoFeasibleBreaks is raised only when there is none. (True when an overfull line stays overfull when extended; expected to be false in general because a hyphen can be wider than the next syllable.)",
 "every box list, line widths, tolerance, penalties and competing break sequence","exponentially many competitors",[A+"typeset/knuth_plass.py:optimum_fit",A+"typeset/knuth_plass.py:_BreakNetwork"])
p("C43","Optimal paragraphs always succeed when fragments fit",
 "Laying out a ragged paragraph with the optimal algorithm succeeds when every unbreakable fragment, with the hyphen it gets at a line end, fits every column, and fails with RuntimeError when one is wider than every column; a justified paragraph always succeeds.",
 "every box list and line widths","all inputs",[A+"typeset/optimum.py:find_breaks",A+"typeset/knuth_plass.py:optimum_fit"])
p("C44","Optimum ragged lines fit their column",
 "With left, centre or right alignment no line of an optimal paragraph is wider than its column.",
 "every input, in exact arithmetic","all inputs",[A+"typeset/knuth_plass.py:ratio_ragged",A+"typeset/knuth_plass.py:_optimal_end"])
p("C45","Optimum typesetting loses no text",
 "The lines produced by the optimal algorithm over all columns in order show the paragraph's text exactly once, up to a hyphen added or one space removed at line ends.",
 "every word list and column sequence","iteration, re-breaking and regrouping over unbounded input",[A+"typeset/optimum.py:shape",A+"typeset/optimum.py:_into_lines_ragged",A+"typeset/optimum.py:_lines_per_column",A+"typeset/optimum.py:_to_boxes"])
p("C46","Optimum: lines are broken for the width of the column they land in",
 "The width used when breaking the i-th line is the width of the column in which the i-th line is placed, and no column gets more lines than fit (one for a too low fresh column). (Expected to be false for columns of negative free height.)",
 "every column sequence and paragraph","cumulative line counts mutated by orphan handling",[A+"typeset/optimum.py:ColumnQueue",A+"typeset/optimum.py:shape"])
p("C47","Optimum justification fills the column exactly",
 "A justified line with stretchable space, other than the last, has exactly the width of its column after stretching. (Expected to be false for one exact stretch ratio.)",
 "every line, in exact arithmetic","one failing ratio among all reals",[A+"typeset/optimum.py:Line.stretch",A+"typeset/words.py:Word.stretch_tail",A+"typeset/knuth_plass.py:ratio_justified"])
p("C48","Optimum layout terminates",
 "The orphan-repair loop of the optimal algorithm terminates for every paragraph and column sequence of non-negative heights.",
 "every input","non-termination cannot be observed by a test",[A+"typeset/optimum.py:shape"])
p("C49","Filling pages keeps every column once and in order",
 "After a block is laid out, the completed pages followed by the remaining pages hold every column exactly once, in order, the filled columns in place of the unfilled ones; finished pages are never changed again.",
 "every page stream and every block that returns its columns in order","tee, peek and islice over infinite iterators",[A+"layout/common.py:fill_pages",A+"layout/common.py:_fill_into",A+"layout/common.py:PageFill.reopen_most_recent_column"])
p("C50","A paragraph only adds to the columns it is given",
 "Paragraph.into_columns yields a non-empty prefix of the given columns, in order, each with its earlier blocks kept and new ones appended.",
 "every paragraph and column stream","look-ahead through tees",[A+"layout/paragraph.py:Paragraph.into_columns",A+"layout/paragraph.py:_fill_paragraph"])
p("C51","A rule only adds to the columns it is given and stays inside",
 "Rule.into_columns obeys the same contract and draws inside the column's box. (Expected to be false when the rule does not fit: earlier content is emitted twice.)",
 "every rule and column stream","needs the column to be nearly full",[A+"layout/rule.py:Rule.into_columns"])
p("C52","Blocks are stacked downwards without overlap",
 "In a column the k-th block starts exactly where the previous one ended: its top is the column's top minus the heights of all earlier blocks.",
 "every sequence of additions","any number of blocks",[A+"layout/common.py:ColumnFill.add",A+"layout/common.py:ColumnFill.cursor"])
p("C53","Automatic pages contain all content once and in order",
 "The pages produced by AutoPage contain what the blocks were laid out to exactly once and in order, and there is always at least one page. When no string of the paragraphs begins with a line break (C55), their lines show the text of the paragraphs exactly once and in order (up to hyphens added and spaces removed at line ends), and in its own style (with optimal line breaking: if no space stands alone at the end of a string or line).",
 "every list of paragraphs and every page template","any number of blocks and pages",[A+"layout/pages.py:AutoPage.render"])
p("C54","Paragraph text is shown in its own style",
 "Interpreting the content stream of a laid-out paragraph, every character is shown in the font, size and colour of its span. (Expected to be false: the initial state of a column is taken after its first word.)",
 "every paragraph","needs a style change right after the first word of a column",[A+"typeset/layout.py:ShapedText.pre_state",A+"typeset/layout.py:render_text",A+"typeset/words.py:WordLike.encode_into_line"])
p("C55","Positioned text is shown in its own style",
 "Interpreting the content stream of a Text drawing, every character is shown in the font, size and colour of its span, and was encoded for that font. (Expected to be false after a styled empty line.)",
 "every Text drawing","needs a style change on an empty line",[A+"draw.py:into_lines",A+"draw.py:Text.render"])
p("C56","Lines are placed according to the alignment",
 "Interpreting the positioning operators, line k (from 1) of a text block has its baseline k line heights below the block's top, and starts at the left edge, is centred, or ends at the right edge of the box, according to the alignment.",
 "every list of line widths, in exact arithmetic","relative moves accumulate over any number of lines",[A+"typeset/layout.py:_render_left",A+"typeset/layout.py:_render_centered",A+"typeset/layout.py:_render_right"])
p("C57","Shape drawings paint what was asked",
 "Each shape emits one well-formed path followed by one painting operator that fills iff a fill colour was given, strokes iff a stroke colour was given (with these colours), and closes iff asked; an empty polyline emits nothing.",
 "every shape, coordinates and colours","all combinations",[A+"draw.py:_finish",A+"draw.py:Polyline.render",A+"draw.py:Rect.render"])
p("C58","Ellipses stay in their box and touch it",
 "The four Bezier arcs of an ellipse form a closed curve passing through the midpoints of the bounding box's sides and every point of the curve lies in the box.",
 "every centre, width, height and curve parameter","all real parameters",[A+"draw.py:_ellipse"])
p("C59","Points given as XY are accepted wherever tuples are",
 "Polyline renders the same bytes whether its points are given as XY or as tuples. (Expected to be false for the first point.)",
 "every point list","needs an XY as first point",[A+"draw.py:Polyline.render"])
p("C60","Colour parsing yields colours in range",
 "RGB.parse of a 7-character string starting with '#' yields components n/255 with 0 <= n <= 255 equal to the hex digit pairs, or fails. (Expected to be false: int(..,16) accepts signs.)",
 "every string","malformed strings that int() accepts",[A+"common.py:RGB.parse"])
p("C61","Margin shorthand follows CSS",
 "Sides.parse maps 1, 2, 3 and 4 values as CSS does, is the identity on Sides, and rejects other tuple lengths.",
 "every value","all values",[A+"common.py:Sides.parse"])
p("C62","The default column is the page minus its margins",
 "A page without explicit columns gets one column whose box is the page rectangle reduced by the margins, and is refused when no width is left; Page.add keeps size, rotation and columns and appends the drawing.",
 "every page size and margin","all values",[A+"page.py:_column",A+"page.py:Page.add",A+"page.py:Column.__init__"])
p("C63","All ways of writing a document give the same bytes",
 "Writing to an iterator, to a path and to a file object produce the same byte sequence (for the same file id).",
 "every document","all documents",[A+"document.py:Document.write",A+"document.py:Document._write_to_path"])
p("C64","A failed write leaves an existing file intact",
 "If rendering fails while writing to a path, the file that was there before is unchanged. (Expected to be false.)",
 "every document and failure point","crash points",[A+"document.py:Document._write_to_path"])
p("C65","XY arithmetic",
 "XY addition and subtraction are componentwise, inverse to each other, agree for XY and tuple operands; scaling distributes; flip is an involution; indexing agrees with iteration.",
 "every points","algebraic laws",[A+"common.py:XY"])
p("C66","Embedded fonts record the widths used for layout",
 "The widths written for an embedded font's glyphs are the widths the layout used, in thousandths of the font size. (Expected to be false: they are truncated to integers.)",
 "every font and every set of used glyphs","fractional widths only occur for some fonts",[A+"fonts/embed.py:_encode_widths",A+"fonts/embed.py:Subset"])
p("C67","Text in standard fonts is measured as the character that is shown",
 "The width used for a character in a standard font is that of the glyph shown for it. (Expected to be false for characters outside cp1252, shown as '?'.)",
 "every character","over a million characters",[A+"fonts/builtins.py",A+"fonts/common.py:BuiltinFont"])
p("C68","Kerning in the standard fonts never reverses the direction of text",
 "For every standard font and pair of characters, the width of the second character plus the kerning between them is not negative.",
 "every pair of characters in every standard font","all pairs",[A+"fonts/builtins.py"])
p("C69","Lines are aligned by the width they show",
 "The width by which a centred or right-aligned line is placed is the width of the text the line shows. (Expected to be false for the optimal algorithm.)",
 "every paragraph, in exact arithmetic","any line",[A+"typeset/optimum.py:Line",A+"typeset/knuth_plass.py:Break",A+"typeset/firstfit.py:Line"])
p("C70","Operators stand in the order the standard prescribes",
 "In the content of every drawing, operators occur only at the level where ISO 32000 (figure 9) allows them: text operators inside BT/ET, and nothing but path construction between the start of a path and its painting. (Expected to be false for coloured shapes: colours are set in between.)",
 "every drawing and text block","any content",[A+"draw.py:_finish",A+"draw.py:Text.render",A+"typeset/layout.py:render_text"])
p("C71","Paragraphs stay inside their columns",
 "On the pages made by AutoPage from paragraphs, no column is filled beyond its height, provided that every column is at least as high as a line: the heights of its blocks add up to at most the height of the column.",
 "every list of paragraphs, every page template with columns as high as a line, in exact arithmetic","any number of paragraphs, columns and pages",[A+"layout/pages.py:AutoPage.render",A+"layout/paragraph.py:Paragraph.into_columns",A+"layout/common.py:ColumnFill"])
p("C72","The file shows its pages to a PDF reader",
 "A reader that knows only the file format (cross-reference table, page tree, streams, fonts, content operators) finds in every file written the pages of the document in order, each with its size and rotation, and in its content stream exactly the operators of the page, in order and with their operands: every number as printed, every font as the one with the name of the font meant, every string as codes that this font maps to the characters meant, kerned as meant.",
 "every document, styles and fonts, and the bytes written","all files; the whole pipeline from document to bytes",[A+"document.py:Document.write",A+"atoms.py",A+"resources.py:Resources.to_objects",A+"fonts/embed.py:Subset.to_objects",A+"page.py:RenderedPage.to_atoms",A+"typeset/state.py"])
p("C73","The text can be extracted from the file",
 "A reader extracts from the file, for each page, the text of the page: every string in the encoding of its font (the ToUnicode table of an embedded font, cp1252 for the standard fonts).",
 "every document, in standard and embedded fonts","all files; the whole pipeline from document to bytes",[A+"document.py:Document.write",A+"fonts/embed.py",A+"fonts/common.py",A+"draw.py:Text.render"])
p("C74","From paragraphs to the text of the file",
 "The text extracted from the file of an AutoPage of paragraphs, in standard or embedded fonts, is, page by page, the text of the template's drawings followed by that of the paragraphs; and the latter, over all pages, is all lines of all paragraphs in order, with nothing lost, repeated or reordered (spaces at line breaks and hyphens as in C53).",
 "every list of paragraphs, every template with room for a line, both line breaking algorithms","any number of paragraphs, pages and columns; the whole pipeline",[A+"document.py:Document.write",A+"layout/pages.py:AutoPage.render",A+"layout/paragraph.py",A+"typeset/firstfit.py",A+"typeset/optimum.py",A+"typeset/words.py"])
p("C75","Text is kerned by the font's table",
 "In the words made from a styled text, every character is moved against the character before it by what the font's kerning table says for that pair when both are in the same font and size, and not at all otherwise; wherever syllables, trailing spaces and style changes fall. (Expected to be false: the last word of a passage is not kerned with the space before it.)",
 "every text, styles, hyphenation function and kerning table","all ways in which texts can be divided",[A+"typeset/parse.py:into_words",A+"typeset/words.py:Word.new",A+"typeset/words.py:TrailingSpace.parse",A+"fonts/common.py:kern"])
p("C76","The built-in hyphenator is Liang's algorithm",
 "hyphenate_word of a word of more than four letters that is not an exception breaks it exactly where the highest value proposed by any occurrence of any pattern in the dotted, lowercased word is odd, but not within the first or last two letters; an exception is broken exactly at its hyphens; and the patterns and exceptions that come with the package are well-formed, so this holds for the built-in hyphenator.",
 "every word, every list of patterns and exceptions","all words and pattern sets",[A+"vendor/hyphenate.py:Hyphenator",A+"vendor/hyphenate.py:hyphenate_word"])
p("C77","Embedded fonts are kerned as the font prescribes",
  "For a font file with a well-formed GPOS table, loading the font succeeds, and for any two characters that the font has, the kerning used for layout is the adjustment that OpenType prescribes for their glyphs (the sum over the pair lookups of the kern features of the first applicable subtable), in thousandths of the font size; characters the font does not have are not kerned.",
  "all GPOS tables (any number of features, lookups, subtables, classes, pairs), all character maps, all pairs of characters",
  "fonts combine listed pairs, classes and several lookups in endless ways",
  ["src/pdfje/vendor/get_kerning_pairs.py: OTFKernReader, for_font","src/pdfje/fonts/embed.py: Subset.new, Subset.charkern"])
p("C78","Embedded fonts are described as their file says",
  "For every character written in an embedded font, the glyph that a reader finds for its code is the glyph the font file has for that character, and the width in the file is that glyph's advance in thousandths of the em (to less than one unit); the font descriptor gives ascent, descent, cap height, italic angle and bounding box of the font rounded to integers, the flags for fixed pitch, italic and bold, and a StemV between 50 and 241 for weights from 100 to 900.",
  "all fonts (any metrics and character map), all histories of text",
  "ranges over all fonts and all texts",
  ["src/pdfje/fonts/embed.py: Subset.new, Subset.to_objects, _encode_flags, _encode_bbox, _encode_cap_height, _encode_stem_v, _encode_cid_gid_map"])
p("C79","On automatic pages, text stays inside its column",
"On the pages made from paragraphs (in columns at least as high as a line), what a PDF reader shows for a column is inside the column's rectangle: every baseline, and every line from its start to the reader's position after it. A line may stick out only if it is a single unbreakable fragment, or by the space that ends its text.",
"all texts, styles, alignments, fonts, page templates, and both line-breaking algorithms",
"Needs the widths of the lines, their alignment, the stacking of blocks and the room in columns together, for every text and every template; overfull lines only occur for rare combinations of words and widths.",
["src/pdfje/layout/paragraph.py:Paragraph.into_columns","src/pdfje/layout/common.py:ColumnFill","src/pdfje/typeset/layout.py","src/pdfje/typeset/firstfit.py","src/pdfje/typeset/optimum.py"])
p("C80","Documents that can be laid out are written",
"If every font size in effect is positive, a line of each paragraph is no higher than the shortest column of the template, polylines are given as pairs of coordinates, optimally broken paragraphs have a positive tolerance and (when not justified) no unbreakable piece of text wider than the narrowest column, and no embedded font has to show 65535 or more characters, then Document.write() ends without an exception after finitely many steps, with a complete file.",
"all documents of pages with drawings and automatic pages of paragraphs, all texts and styles, all templates, all alignments and both line breaking algorithms",
"a test runs documents that are known to work; that no combination of text, style, columns and page numbers makes a loop run forever or an internal assertion, index or division fail needs a proof for all of them",
["src/pdfje/document.py:Document.write","src/pdfje/layout/pages.py:AutoPage.render","src/pdfje/layout/paragraph.py:Paragraph.into_columns","src/pdfje/typeset/firstfit.py:shape","src/pdfje/typeset/optimum.py:shape","src/pdfje/draw.py:Text.render","src/pdfje/resources.py:Resources.to_objects"])
p("C81","Rounding errors lose no text",
"With Python's floats (IEEE-754 double precision), on automatic pages of paragraphs broken in either way, whose columns have finite heights and room for at least one line and fewer than 2^50 lines: all text appears exactly once, in order (if no string begins with a line break: C55), whatever the rounding errors; what is left of a column never becomes negative, infinite or NaN; and the exact height of the lines put into a column never exceeds the height it had left (except one line in a column lower than a line).",
"all texts, styles, templates, page numbers, all finite double precision sizes, line spacings and column heights, all font metrics, including infinite or undefined ones, and every outcome of the ** operator",
"a test fixes sizes whose roundings it happens to survive; there are 2^64 doubles for each size, spacing and height",
["src/pdfje/typeset/firstfit.py:take_box","src/pdfje/typeset/optimum.py:shape","src/pdfje/layout/paragraph.py:Paragraph.into_columns","src/pdfje/layout/common.py:ColumnFill.add","src/pdfje/layout/pages.py:AutoPage.render"])
p("C82","Units, paper sizes and colour names are what they say",
 "inch, cm, mm and pc convert every finite double of ordinary size to points (72 to the inch, 2.54 cm to the inch, 6 picas to the inch) with a relative error of at most 2**-51, whole inches and picas exactly, and pt changes nothing; the paper sizes are those of ISO 216 and the American ones in portrait (ledger in landscape), to within a point except A0 and A1 (four points); the named colours are the CSS ones.",
 "every double between 2**-900 and 2**1000 in size","rounding for all doubles",[A+"units.py",A+"common.py:RGB"])
p("C83","A paragraph with optimal line breaks is set in the best way there is",
 "The lines of a paragraph with LinebreakParams show its text cut at spaces, dashes and hyphenation points such that, among all ways to cut it in which no line (but the last) is stretched beyond the tolerance and none is shrunk by more than a third of its spaces (ragged: none is wider than its column), none has fewer demerits (badness, hyphens, consecutive hyphens, contrasting neighbours as documented); and the tolerance is the first of tolerance times 1, 2, 3, 5, 8 and infinity that allows any.",
 "every text, style, sequence of columns, alignment, tolerance and penalties (exact arithmetic); every way of breaking","exponentially many ways of breaking, for every text",[A+"typeset/optimum.py:shape",A+"typeset/optimum.py:into_boxes",A+"typeset/optimum.py:find_breaks",A+"typeset/knuth_plass.py:optimum_fit"])
p("C84","Kerning and indentation on the lines of a paragraph",
 "On every line of a typeset paragraph each character stands where its font's kerning table puts it with respect to the character before it on that line, whatever was hyphenated, wrapped or pruned; the first line starts with the paragraph's indentation and every other line exactly at the edge of the column; and justification moves nothing but the spaces after words. (Expected to be false: some lines start with the kerning between their first character and the end of the line before.)",
 "every text, style, indentation, hyphenation function, kerning table and sequence of columns; both line breaking algorithms (exact arithmetic)","all ways of breaking all texts",[A+"typeset/words.py:WordLike.without_init_kern",A+"typeset/words.py:Word.hyphenate",A+"typeset/words.py:indent_first",A+"typeset/firstfit.py:take_line",A+"typeset/optimum.py:shape",A+"layout/paragraph.py:Paragraph"])
p("C85","Optimal line breaks avoid orphans",
 "With orphan avoidance and optimal line breaks: when the columns are equally wide and the last column has room for two lines, a paragraph whose second-last column holds more than two lines does not leave a single line in the last one; a paragraph that continues in the next column does not leave a single line at the bottom of a column that already has content; and no column but the first is left empty. (The last is expected to be false for columns with room for one line.)",
 "every paragraph, sequence of columns, alignment, tolerance and penalties","the repair is a loop over all layouts; every text and every sequence of columns",[A+"typeset/optimum.py:shape",A+"typeset/optimum.py:ColumnQueue",A+"typeset/optimum.py:_lines_per_column"])
p("C86","Drawings and blocks do not affect each other",
 "What a drawing, a piece of a paragraph or a rule shows on a page (the paths painted with their colours; the text with its place, font, size and colour) does not depend on anything drawn before it on the page: the page shows what each of them shows by itself, in order, and nothing else. Adding a drawing to a page adds what the drawing shows and changes nothing else.",
 "every document, every page, every sequence of drawings and blocks on it, every state of the reader before them","PDF operators change a shared graphics state (text and filled shapes share a colour, text settings outlive text objects): every sequence of drawings and blocks would have to be rendered",[A+"draw.py:_finish",A+"draw.py:Text.render",A+"typeset/layout.py:render_text",A+"layout/rule.py:ShapedRule",A+"page.py:Page.fill"])
p("C87","What is written of a page does not depend on what follows",
 "Adding items at the end of a document changes none of the bytes written for the pages before: the header and the two objects of each page stay the same, also if the items added fail. Adding blocks at the end of automatic pages changes nothing about the pages before the last one; on the last one, each column keeps what is in it and may get more below.",
 "every document, every content that is added at the end, every style and font","every document would have to be compared with every continuation",[A+"document.py:_doc_objects",A+"layout/pages.py:AutoPage.render",A+"layout/common.py:fill_pages",A+"atoms.py:write"])
p("C88","First-fit lines are as full as possible",
 "Set with first fit, a paragraph is cut only where a line may end (between words, after dashes, between syllables); every line but the last takes as much as fits in its column: with the next piece (with its hyphen if it ends inside a word, without its final space) the line would be wider than the column. Only a line that is a single piece may be wider than its column. As long as a part of a line is never wider than the line, no other way to break the paragraph into lines that fit in the same columns has fewer lines.",
 "every paragraph, all fonts, styles and hyphenators, every sequence of columns, with and without orphan avoidance and justification","every text, every width and every other way to break it would have to be tried",[A+"typeset/firstfit.py:take_line",A+"typeset/firstfit.py:shape",A+"typeset/words.py:Word.hyphenate",A+"typeset/words.py:Word.minimal_box"])
p("C89","A document made from a string can be written and read back",
 "For every Unicode text which does not begin with a line break and whose words, with the spaces after them, are at most 30 characters long, Document(text).write() finishes, and a PDF reader that opens the file (if it is smaller than 10 GB) finds one or more pages of A4, not rotated, from which it extracts the lines of the text, once and in order; lines are cut at LF or CRLF, and where they are broken on the page they may have a hyphen added or a space removed; characters outside cp1252 read '?'. The same holds in any style with a standard font, if words of the given length fit at its size. Document() is one empty page of A4.",
 "every text, every style with a standard font, all hyphenators and document ids","every text and style would have to be written and read",[A+"document.py:Document.__init__",A+"document.py:Document.write",A+"layout/pages.py:AutoPage.render",A+"layout/paragraph.py:Paragraph",A+"page.py:Page.__init__"])
p("C90","In doubles, a line overruns its column by rounding errors only",
 "pdfje measures text with Python floats. Take a paragraph of text of any length in any mix of styles, laid out without optimal line breaking. Then every line put in a column, measured exactly (real arithmetic on the glyph widths, the kerning and the sizes that are written to the file, without the final space), is at most a rounding error wider than the column: less than 1/100000 point for each syllable and (twice) each word on it, for sizes of 6 to 24 points, glyphs of at most 8 em, syllables of at most 32 characters, an indentation of at most 24 points and columns of at most 10000 points. The one exception is a single syllable that does not fit the column. Without the allowance the claim is false: 'i is' in Helvetica 12 is put in a column of 14.664.",
 "every text and mix of styles, fonts and sizes in the range, every sequence of column widths, every indentation, with and without orphan control, for all rounding errors",
 "An error bound covers every combination of glyph widths, kerning and additions; a test sees the errors of the lines it prints.",
 ["src/pdfje/layout/paragraph.py: Paragraph.into_columns","src/pdfje/typeset/firstfit.py: take_line, shape, take_box","src/pdfje/typeset/words.py: Slug, Word.hyphenate, TrailingSpace, indent_first","src/pdfje/typeset/parse.py: into_words"])
p("C91","In doubles, laying out paragraphs and rules never fails",
 "Paragraphs laid out without optimal line breaking are always laid out, whatever rounding does: pages are found, and no error is raised. When a word does not fit, pdfje subtracts the widths of its syllables one by one and raises RuntimeError ('Hyphenation not necessary') if they all turn out to fit after all; with rounded sums that could happen. It does not, for sizes of 6 to 24 points, glyphs of at most 8 em, hyphens that advance by at least 1/1000 em whatever they are kerned with (as in the standard fonts), syllables of at most 32 characters, words of at most 200 syllables, an indentation of at most 24 points, a line height of at least 1 point that fits the columns, and columns of at most 10000 points. This holds for every alignment, for several columns and pages, and with rules (whose margins add up to at most 10000) in between, even when a rule leaves a column more than full; unless justified, all lines on all the pages keep to the bound of C90.",
 "every list of paragraphs and rules with any mix of styles in the range, every page template, every alignment and indentation, with and without orphan control, for all rounding errors",
 "The failure needs a word whose exact width and rounded width lie on different sides of the space left; tests would have to find one.",
 ["src/pdfje/layout/paragraph.py: Paragraph.into_columns","src/pdfje/layout/rule.py: Rule.into_columns","src/pdfje/layout/pages.py: AutoPage.render","src/pdfje/typeset/firstfit.py: take_line, shape, take_box, justify","src/pdfje/typeset/words.py: Word.hyphenate, Slug.with_hyphen, indent_first"])
p("C92","Wider columns never take more lines",
 "A paragraph set with first fit in columns that are all at least as wide as those of another layout of it takes at most as many lines as there, whatever the heights of the columns and with or without orphan avoidance or justification in either; as long as every piece of the text (between places where a line may end) fits the narrower columns and a part of a line is never wider than the line.",
 "every paragraph, all fonts, styles and hyphenators, every two sequences of columns",
 "A greedy algorithm can in principle lose by having more room; excluding it needs a proof over all texts and widths.",
 ["src/pdfje/typeset/firstfit.py: shape, take_box, take_line","src/pdfje/typeset/words.py: Word.hyphenate"])
p("C93","In doubles, an optimally broken ragged line overruns its column by rounding errors only",
 "Take a paragraph of text of any length in any mix of styles, laid out with optimal line breaking and not justified. The optimal algorithm adds up one running width for the whole paragraph and judges a line by the difference of two of its values, so one could fear that the errors of a long paragraph add up. They do not: every line put in a column, measured exactly (real arithmetic on the glyph widths, the kerning and the sizes that are written to the file), is at most a rounding error wider than the column, less than 1/100000 point for each syllable and (twice) each word on that line, and one more, under the numeric limits of C90 (and a line height of at least 1 point and columns at most 10000 points high), whatever the tolerance and the penalties. Without the allowance the claim is false.",
 "every text and mix of styles, fonts and sizes in the range, every sequence of columns, every tolerance and penalties, with and without orphan control, for all rounding errors",
 "An error bound covers every combination of glyph widths, kerning and additions; a test sees the errors of the lines it prints.",
 ["src/pdfje/layout/paragraph.py: Paragraph.into_columns","src/pdfje/typeset/optimum.py: _to_boxes, into_boxes, shape, _into_lines_ragged","src/pdfje/typeset/knuth_plass.py: optimum_fit","src/pdfje/typeset/words.py: Slug, TrailingSpace, indent_first"])
p("C94","In doubles, writing a document finishes",
 "Document.write refuses a number that is not finite with an AssertionError, when it is an adjustment between glyphs or the size of a page, and writes a header before it finds out. Rounding never makes such a number. A document of pages of finite size, with drawings (polylines starting with a point that can be used, texts of any size and style), and of automatic pages of paragraphs and rules that keep to the limits of C91 (aligned or justified), is written to the end: iterating over write finishes and raises nothing. With embedded fonts this holds if every font has two-byte glyph ids and shows less than 65535 different characters. A page of infinite width is an AssertionError.",
 "every list of pages, drawings, paragraphs, rules, templates, styles, indentations and fonts in the range, for all rounding errors",
 "The exception needs a particular overflow or a word that breaks wrongly by rounding; a test sees the documents it writes.",
 ["src/pdfje/document.py: Document.write, _doc_objects","src/pdfje/atoms.py: Real, Array","src/pdfje/typeset/words.py: Slug.to_atoms, TrailingSpace.into_atoms, _encode_kerning","src/pdfje/draw.py: Text, Polyline","src/pdfje/layout/pages.py: AutoPage.render"])
p("C95","Justified lines measured in doubles fill their column up to rounding",
 "pdfje distributes the space left on a justified line over its spaces with Python floats. Of the lines of a justified paragraph (fixed-width fitting, with any hyphenation and indentation), every line but the last that has a space and is at most 10000 points wide before it is stretched is afterwards exactly as wide as its column, measured with the widths and kerns written to the file, up to 1/100000 of a point for every piece on the line (and one more): also when spaces have to be shrunk. Lines without spaces, and the last line, are the lines that are not justified.",
 "every text, style of 6 to 24 points, metrics up to 8 em, hyphenation, indentation up to 24 points, stream of columns up to 10000 points and paragraph up to 10000 pieces, for all rounding errors",
 "The error depends on every rounding in the sums, the division and the products for all spaces; a test compares a few lines with a tolerance.",
 ["src/pdfje/typeset/firstfit.py: take_line, Line.justify","src/pdfje/typeset/words.py: TrailingSpace.stretch, Word.extend_tail"])
p("C96","Where columns lie, and on which page, does not matter for what is put in them",
 "Take two templates of pages whose columns, counted through all the pages, have the same sizes one by one, but lie elsewhere, on pages of other sizes, or are dealt out differently (two on every page, or one on every page, or any numbers). Laying out the same blocks (paragraphs of any options and rules) succeeds with both templates or fails with both with the same error. If it succeeds, the columns with the same number have the same room left and show the same marks (texts with the same fonts, sizes, colours and kerning, and rules), moved by the distance of the two columns and not otherwise; and a column that only one of the layouts has (the rest of its last page) shows nothing.",
 "every list of blocks, style, font data, pair of templates (functions from page numbers to pages) with columns of equal sizes and pair of first page numbers",
 "Nothing may depend on the place of a column or on page breaks, for every text and every way of dealing columns to pages; tests use one template each.",
 ["src/pdfje/layout/pages.py:AutoPage.render","src/pdfje/layout/common.py:fill_pages","src/pdfje/layout/common.py:ColumnFill","src/pdfje/layout/paragraph.py:Paragraph.into_columns","src/pdfje/layout/rule.py:Rule"])

p("C97","How a text is put together from strings and spans does not matter where styles are the same",
 "The text of a paragraph or of a Text drawing may be given as one string or as several, and a part of it may be wrapped in a span. Where that does not change any style it changes nothing: a span whose style sets only what holds already where it stands can be replaced by its contents, at any depth, and a string can be cut in two at any place; the document is written as the same bytes, or writing it fails in the same way. (Expected to be false for cuts inside a word, which is then no longer hyphenated or kerned as one, and for empty strings, after which text is lost: proved for cuts after a line break, and where a line can be broken and no kerning applies.)",
 "every document, style, string and place in it, span at any depth, font data and hyphenation",
 "The pieces go through three loops (styles, lines, words) that each restart at every piece; only some ways of cutting some strings are tested.",
 ["src/pdfje/style.py:StyledMixin.flatten","src/pdfje/typeset/state.py:splitlines","src/pdfje/typeset/parse.py:into_words","src/pdfje/layout/paragraph.py:Paragraph.into_columns","src/pdfje/draw.py:Text"])

p("C98","Everything twice as large gives the same layout twice as large",
 "Blocks laid out with everything k times as large (font sizes, indentations, margins of rules, pages and columns; k above zero) fail in the same way, or give as many pages with the same blocks in the same columns, broken into the same lines and showing the same strings in the same fonts and colours, where all positions, line distances, font sizes and rules' lengths are k times as large; there is no preferred unit, and no length that matters by itself. The same holds for what is drawn on pages by hand. For rules and for paragraphs of either line breaking algorithm (avoiding orphans or not, with any alignment; the parameters of the optimal one are ratios).",
 "every such sequence of blocks with any styles and spans, every page template, factor, font data and hyphenation, in exact arithmetic",
 "One fixed length or unscaled quantity anywhere in measuring, breaking, justifying or placing breaks it, at sizes that tests do not use.",
 ["src/pdfje/typeset/words.py","src/pdfje/typeset/parse.py:into_words","src/pdfje/typeset/firstfit.py:shape","src/pdfje/typeset/optimum.py:shape","src/pdfje/typeset/knuth_plass.py:optimum_fit","src/pdfje/layout/paragraph.py:Paragraph.into_columns","src/pdfje/layout/rule.py:Rule","src/pdfje/layout/pages.py:AutoPage","src/pdfje/draw.py"])

p("C99","Colours change nothing but colours",
 "Laying out the same blocks on the same pages in other colours (each colour replaced by another one, different ones by different ones: of text, spans, rules and drawings) fails in the same way, or gives as many pages with the same blocks in the same places, broken into the same lines at the same positions, and the same operators one by one, where only the operands of colour operators are replaced. The same holds for what is drawn on pages by hand.",
 "every sequence of blocks with any styles and spans, page template, drawing and one-to-one change of colours, font data and hyphenation, with both line breaking algorithms",
 "Changes of colour are commands that travel with words through splitting, breaking and hyphenating: that none of these steps looks at them cannot be seen from some coloured examples.",
 ["src/pdfje/typeset/state.py","src/pdfje/typeset/parse.py:into_words","src/pdfje/typeset/words.py","src/pdfje/style.py","src/pdfje/layout/paragraph.py:Paragraph.into_columns","src/pdfje/layout/rule.py:Rule","src/pdfje/draw.py"])

with open("/verif/properties.jsonl","w") as f:
    for x in P: f.write(json.dumps(x)+"\n")
print(len(P))
