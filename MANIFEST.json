{
 "claims": [
  {
   "property": "C01",
   "status": "proved",
   "theorems": [
    "C01_literal_string_round_trip"
   ],
   "note": ""
  },
  {
   "property": "C02",
   "status": "proved",
   "theorems": [
    "C02_hex_string_round_trip"
   ],
   "note": ""
  },
  {
   "property": "C03",
   "status": "proved",
   "theorems": [
    "C03_atom_round_trip"
   ],
   "note": ""
  },
  {
   "property": "C04",
   "status": "partial",
   "theorems": [
    "C04_real_legal_and_accurate_partial",
    "C04_real_plain_range",
    "C04_real_exponent_refuted"
   ],
   "note": "The full statement is false of the code: %g uses exponent notation for |x| >= 999999.5 and for small |x|; proved for all numbers printed without exponent, refuted outside."
  },
  {
   "property": "C05",
   "status": "partial",
   "theorems": [
    "C05_sanitize_name_token_partial",
    "C05_sanitize_name_refuted"
   ],
   "note": "The full statement is false of the code: PDF delimiters are kept. Proved for all inputs without delimiter; refuted for all inputs with one."
  },
  {
   "property": "C06",
   "status": "proved",
   "theorems": [
    "C06_xref_offsets_exact"
   ],
   "note": ""
  },
  {
   "property": "C07",
   "status": "proved",
   "theorems": [
    "C07_file_round_trip",
    "C07_header"
   ],
   "note": ""
  },
  {
   "property": "C08",
   "status": "proved",
   "theorems": [
    "C08_no_pages"
   ],
   "note": "An empty document raises; no other raises this error (every AutoPage yields at least one page)."
  },
  {
   "property": "C09",
   "status": "proved",
   "theorems": [
    "C09_object_ids",
    "C09_C06_document_xref"
   ],
   "note": ""
  },
  {
   "property": "C10",
   "status": "proved",
   "theorems": [
    "C10_references"
   ],
   "note": ""
  },
  {
   "property": "C11",
   "status": "proved",
   "theorems": [
    "C11_page_tree"
   ],
   "note": ""
  },
  {
   "property": "C12",
   "status": "proved",
   "theorems": [
    "C12_page_numbers"
   ],
   "note": "With C11, the k-th page object has size, rotation and drawings of template(k)."
  },
  {
   "property": "C13",
   "status": "partial",
   "theorems": [
    "C13_fonts_declared",
    "C13_keys_partial",
    "C13_keys_refuted"
   ],
   "note": "Declared: proved in full. Unique keys: refuted for Symbol and ZapfDingbats, whose four variants share an id; proved for all other fonts, and that duplicates have equal values."
  },
  {
   "property": "C14",
   "status": "proved",
   "theorems": [
    "C14_embedded_text_recoverable"
   ],
   "note": ""
  },
  {
   "property": "C15",
   "status": "proved",
   "theorems": [
    "C15_tables_indexed_by_code"
   ],
   "note": ""
  },
  {
   "property": "C16",
   "status": "proved",
   "theorems": [
    "C16_utf16be_hex",
    "C16_code_bytes"
   ],
   "note": ""
  },
  {
   "property": "C17",
   "status": "partial",
   "theorems": [
    "C17_block_limit_partial",
    "C17_block_limit_refuted"
   ],
   "note": "False of the code: there is always one block; proved up to 100 characters, refuted for every larger set."
  },
  {
   "property": "C18",
   "status": "proved",
   "theorems": [
    "C18_builtin_encode"
   ],
   "note": ""
  },
  {
   "property": "C19",
   "status": "proved",
   "theorems": [
    "C19_style_or_fields",
    "C19_style_monoid",
    "C19_style_action"
   ],
   "note": ""
  },
  {
   "property": "C20",
   "status": "proved",
   "theorems": [
    "C20_nested_spans",
    "C20_span_returns"
   ],
   "note": "For any number type whose equality is identity (exact_eq); exact rationals qualify."
  },
  {
   "property": "C21",
   "status": "partial",
   "theorems": [
    "C21_squash_simple_partial",
    "C21_squash_style_diff",
    "C21_squash_chains_refuted"
   ],
   "note": "False of the code for nested chains (refuted with a witness); proved for all lists of non-chain commands, which covers everything styles produce."
  },
  {
   "property": "C22",
   "status": "proved",
   "theorems": [
    "C22_splitlines",
    "C22_no_character_lost"
   ],
   "note": ""
  },
  {
   "property": "C23",
   "status": "proved",
   "theorems": [
    "C23_max_lead",
    "C23_max_lead_no_text"
   ],
   "note": ""
  },
  {
   "property": "C24",
   "status": "partial",
   "theorems": [
    "C24_words_total",
    "C24_words_keep_text_partial",
    "C24_words_keep_text_refuted"
   ],
   "note": "False of the code: an empty passage after a word boundary makes the parser drop everything after it. Proved for all passages where that does not happen; refuted for every text of the other kind."
  },
  {
   "property": "C25",
   "status": "partial",
   "theorems": [
    "C25_words_keep_style_partial",
    "C25_words_keep_style_nonempty",
    "C25_words_keep_style_refuted"
   ],
   "note": "Full for passages with text. False when a string without text separates two changes of several settings each: the second replaces the first (the defect of C21); in general proved under the hypothesis that merging loses nothing."
  },
  {
   "property": "C26",
   "status": "proved",
   "theorems": [
    "C26_syllables",
    "C26_never_hyphenate"
   ],
   "note": ""
  },
  {
   "property": "C27",
   "status": "proved",
   "theorems": [
    "C27_partitions",
    "C27_splits",
    "C27_short_words",
    "C27_two_letters",
    "C27_lowercase_refuted"
   ],
   "note": "The refuted theorem shows the stated length hypothesis on lowercasing is needed."
  },
  {
   "property": "C28",
   "status": "proved",
   "theorems": [
    "C28_pyphen_partitions",
    "C28_no_positions",
    "C28_pyphen_nonempty"
   ],
   "note": ""
  },
  {
   "property": "C29",
   "status": "proved",
   "theorems": [
    "C29_tj_array",
    "C29_tj_of_fragment"
   ],
   "note": ""
  },
  {
   "property": "C30",
   "status": "proved",
   "theorems": [
    "C30_kern_positions"
   ],
   "note": ""
  },
  {
   "property": "C31",
   "status": "proved",
   "theorems": [
    "C31_width_is_displayed",
    "C31_indent_extend"
   ],
   "note": ""
  },
  {
   "property": "C32",
   "status": "proved",
   "theorems": [
    "C32_hyphenate_keeps_text",
    "C32_hyphenate_fits",
    "C32_hyphenate_maximal"
   ],
   "note": "Maximality: the next longer part never fits; no longer part at all fits when syllables do not shrink the word."
  },
  {
   "property": "C33",
   "status": "proved",
   "theorems": [
    "C33_hyphenate_total"
   ],
   "note": ""
  },
  {
   "property": "C34",
   "status": "proved",
   "theorems": [
    "C34_firstfit_keeps_text"
   ],
   "note": "any arithmetic; also: words stay executable in order and the end state is kept; justification included"
  },
  {
   "property": "C35",
   "status": "proved",
   "theorems": [
    "C35_firstfit_lines_fit"
   ],
   "note": "exact rationals; also: the width recorded for a line is the displayed width"
  },
  {
   "property": "C36",
   "status": "proved",
   "theorems": [
    "C36_firstfit_room"
   ],
   "note": "exact rationals, line height > 0"
  },
  {
   "property": "C37",
   "status": "partial",
   "theorems": [
    "C37_firstfit_terminates_partial",
    "C37_firstfit_total_partial",
    "C37_firstfit_terminates_refuted"
   ],
   "note": "the full claim is false: with columns of negative height layout never ends; proved for heights >= 0 (any arithmetic: no divergence; exact rationals: success)"
  },
  {
   "property": "C38",
   "status": "proved",
   "theorems": [
    "C38_no_orphan_at_end",
    "C38_no_orphan_at_start"
   ],
   "note": ""
  },
  {
   "property": "C39",
   "status": "proved",
   "theorems": [
    "C39_firstfit_justified"
   ],
   "note": "exact rationals"
  },
  {
   "property": "C40",
   "status": "proved",
   "theorems": [
    "C40_breaks_partition"
   ],
   "note": "any arithmetic"
  },
  {
   "property": "C41",
   "status": "proved",
   "theorems": [
    "C41_tolerance",
    "C41_ratio_fills"
   ],
   "note": "the ratio's meaning in exact rationals"
  },
  {
   "property": "C42",
   "status": "partial",
   "theorems": [
    "C42_optimal_partial",
    "C42_optimal_exact_partial",
    "C42_no_hyphens_stays",
    "C42_widths",
    "C42_optimal_refuted"
   ],
   "note": "the full claim is false: when a hyphen is wider than the syllable after it, NoFeasibleBreaks is raised although one line fits; proved when adding a fragment to an overfull line leaves it overfull, which holds for fragments of non-negative widths without hyphens"
  },
  {
   "property": "C43",
   "status": "proved",
   "theorems": [
    "C43_ragged_succeeds",
    "C43_justified_succeeds",
    "C43_ragged_fails"
   ],
   "note": "exact rationals; between the two ragged cases (columns of different widths, a fragment that fits some) either may happen"
  },
  {
   "property": "C44",
   "status": "proved",
   "theorems": [
    "C44_ragged_lines_fit"
   ],
   "note": "exact rationals, heights >= 0"
  },
  {
   "property": "C45",
   "status": "partial",
   "theorems": [
    "C45_optimum_keeps_text",
    "C45_optimum_keeps_style_partial",
    "C45_optimum_keeps_style_refuted"
   ],
   "note": "the text claim is proved for any arithmetic; the style after each line is kept except when a space alone on a line carries a style change (refuted there)"
  },
  {
   "property": "C46",
   "status": "partial",
   "theorems": [
    "C46_lines_in_their_columns",
    "C46_room_partial",
    "C46_room_refuted"
   ],
   "note": "proved for heights >= 0; false for a first column of negative height"
  },
  {
   "property": "C47",
   "status": "partial",
   "theorems": [
    "C47_justified_lines_partial",
    "C47_justified_lines_refuted"
   ],
   "note": "exact rationals; false exactly when the spaces would have to double"
  },
  {
   "property": "C48",
   "status": "proved",
   "theorems": [
    "C48_optimum_terminates"
   ],
   "note": "any arithmetic"
  },
  {
   "property": "C49",
   "status": "proved",
   "theorems": [
    "C49_fill_pages",
    "C49_columns_in_order"
   ],
   "note": "any arithmetic"
  },
  {
   "property": "C50",
   "status": "proved",
   "theorems": [
    "C50_paragraph_adds"
   ],
   "note": "any arithmetic"
  },
  {
   "property": "C51",
   "status": "partial",
   "theorems": [
    "C51_rule_partial",
    "C86_rule",
    "C51_rule_refuted",
    "C51_text_lost_refuted"
   ],
   "note": "true (exact rationals) for a rule that fits; whenever it does not fit, the column is emitted twice and the rule lies outside the box: refuted for all such cases, with an example on pages; and text after such a rule can be lost"
  },
  {
   "property": "C52",
   "status": "proved",
   "theorems": [
    "C52_stacked",
    "C52_on_pages"
   ],
   "note": "exact rationals; the second theorem is about every column on the pages AutoPage makes from paragraphs"
  },
  {
   "property": "C53",
   "status": "proved",
   "theorems": [
    "C53_pages",
    "C53_text_firstfit",
    "C53_text",
    "C53_styles"
   ],
   "note": "structure: any arithmetic, any paragraphs; text level: for strings that do not begin with a line break (otherwise C55's defect applies); first-fit with styles in any arithmetic; both algorithms in exact rationals when columns are as high as a line, text always, styles if (with optimal line breaks) no space stands alone at the end of a string or line (otherwise the change of style after it can be lost: C45, C54_optimal_refuted)"
  },
  {
   "property": "C54",
   "status": "partial",
   "theorems": [
    "C54_paragraph_style_partial",
    "C54_optimal_partial",
    "C54_paragraph_style_refuted",
    "C54_optimal_refuted"
   ],
   "note": "the full claim is false for the first word of a column, and with optimal line breaks after a space that stands alone; proved for first-fit in any arithmetic, and for both algorithms in exact rationals without such spaces: everything after (a part of) the first word of each column is shown as wanted, and everything if the first word does not change the style"
  },
  {
   "property": "C55",
   "status": "partial",
   "theorems": [
    "C55_text_style_partial",
    "C55_constructor",
    "C55_text_style_refuted",
    "C55_empty_string_refuted"
   ],
   "note": "the full claim is false: a string that begins with a line break in a new style is encoded for the old font, or is lost; proved (line by line) when no string is empty or begins with a line break"
  },
  {
   "property": "C56",
   "status": "proved",
   "theorems": [
    "C56_line_positions",
    "C56_text_drawings"
   ],
   "note": "exact rationals; for Text drawings also: the width of a line is the displacement of what it shows"
  },
  {
   "property": "C57",
   "status": "proved",
   "theorems": [
    "C57_line",
    "C57_rect",
    "C57_polyline",
    "C57_ellipse",
    "C57_circle",
    "C57_constructors"
   ],
   "note": "exact rationals where arithmetic matters"
  },
  {
   "property": "C58",
   "status": "proved",
   "theorems": [
    "C58_ellipse_in_box",
    "C58_ellipse_accurate"
   ],
   "note": "exact rationals; the curve is within 0.03 percent of the true ellipse"
  },
  {
   "property": "C59",
   "status": "partial",
   "theorems": [
    "C59_polyline_points_partial",
    "C59_polyline_points_refuted",
    "C59_polyline_points_accepted"
   ],
   "note": "the full claim is false: Polyline leaves points given as XY/tuple mixed as they are; see the refuted theorem"
  },
  {
   "property": "C60",
   "status": "partial",
   "theorems": [
    "C60_hex_colours_partial",
    "C60_accepted_range_partial",
    "C60_ascii_components",
    "C60_triples",
    "C60_colours_refuted"
   ],
   "note": "the full claim is false: odd hex strings and out-of-range numbers are accepted (refuted); proved for well-formed strings and in-range tuples"
  },
  {
   "property": "C61",
   "status": "proved",
   "theorems": [
    "C61_margin_shorthand",
    "C61_margin_number"
   ],
   "note": ""
  },
  {
   "property": "C62",
   "status": "proved",
   "theorems": [
    "C62_default_page",
    "C62_default_column",
    "C62_explicit_columns",
    "C62_page_add"
   ],
   "note": ""
  },
  {
   "property": "C63",
   "status": "proved",
   "theorems": [
    "C63_same_bytes"
   ],
   "note": ""
  },
  {
   "property": "C64",
   "status": "partial",
   "theorems": [
    "C64_failed_write_refuted",
    "C64_every_failure_refuted"
   ],
   "note": "Refuted, as expected: the file is opened before anything is rendered; after every failure the path holds the header and what was written up to then (the other files are intact)."
  },
  {
   "property": "C65",
   "status": "proved",
   "theorems": [
    "C65_componentwise",
    "C65_parse",
    "C65_indexing",
    "C65_arithmetic"
   ],
   "note": ""
  },
  {
   "property": "C66",
   "status": "partial",
   "theorems": [
    "C66_widths_partial",
    "C66_integer",
    "C66_widths_refuted"
   ],
   "note": "Refuted for fractional widths (usual for fonts with 2048 units per em); proved: the error is less than one unit, and none for integral widths."
  },
  {
   "property": "C67",
   "status": "partial",
   "theorems": [
    "C67_measured_as_shown_partial",
    "C67_measured_as_shown_refuted"
   ],
   "note": "Refuted for 19 characters outside cp1252 and for the no-break space; proved for all other characters, in terms of the tables in the code. That the tables have the real metrics of the fonts is not in the code."
  },
  {
   "property": "C68",
   "status": "proved",
   "theorems": [
    "C68_kerning_keeps_direction",
    "C68_charkern"
   ],
   "note": "Finite tables, generated from the source; all characters."
  },
  {
   "property": "C69",
   "status": "partial",
   "theorems": [
    "C69_optimum_width_partial",
    "C69_optimum_width_refuted",
    "C35_firstfit_lines_fit"
   ],
   "note": "true for first-fit (second part of C35); the optimal algorithm records the width with the removed space and without the added hyphen"
  },
  {
   "property": "C70",
   "status": "partial",
   "theorems": [
    "C70_text_order",
    "C70_drawing_order_partial",
    "C70_drawing_order_refuted"
   ],
   "note": "text blocks and colourless shapes; false for every coloured shape"
  },
  {
   "property": "C71",
   "status": "proved",
   "theorems": [
    "C71_inside_columns"
   ],
   "note": "exact rationals; both algorithms"
  },
  {
   "property": "C72",
   "status": "proved",
   "theorems": [
    "C72_pages_as_read"
   ],
   "note": "Hypotheses: numbers that %g prints plainly (see C04), text in Unicode, encoded for the font it is shown in (see C54, C55), font files that can be embedded; zlib is any compression with an inverse."
  },
  {
   "property": "C73",
   "status": "partial",
   "theorems": [
    "C73_text_extracted_partial",
    "C73_drawings_extracted",
    "C73_standard_fonts",
    "C73_one_font_partial",
    "C73_refuted"
   ],
   "note": "Refuted for a text in an embedded font that begins with a line break (the first word is encoded for one font and shown in another). Proved: whenever strings are encoded for the font in effect; for all drawings whose strings begin with text; for all documents in the standard fonts; for all documents whose paragraphs are each in one font, embedded or not."
  },
  {
   "property": "C74",
   "status": "partial",
   "theorems": [
    "C74_paragraphs_extracted_partial",
    "C74_mixed_fonts_partial",
    "C74_refuted"
   ],
   "note": "In exact arithmetic, like C53. Proved for paragraphs that are each in one font (embedded or not) or in standard fonts, and for paragraphs in any fonts on pages where no column begins with a word that changes the style (with optimal line breaks also: no space stands alone, see C54); false for a paragraph whose first word changes to an embedded font (its start is encoded for one font and shown in the other): refuted."
  },
  {
   "property": "C75",
   "status": "partial",
   "theorems": [
    "C75_words_kerned_partial",
    "C75_one_style_partial",
    "C75_kerning_refuted"
   ],
   "note": "Refuted with the metrics of Helvetica: in 'go To' the T is not kerned with the space. Proved: within words always; every word with the end of the previous word or with nothing; text in one style that ends at a break, as a whole. Exact arithmetic; passages without text excluded."
  },
  {
   "property": "C76",
   "status": "proved",
   "theorems": [
    "C76_liang",
    "C76_exceptions",
    "C76_english"
   ],
   "note": ""
  },
  {
   "property": "C77",
   "status": "partial",
   "theorems": [
    "C77_total",
    "C77_kerning_partial",
    "C77_missing",
    "C77_kerning_refuted"
   ],
   "note": "Refuted in three ways: two lookups that both adjust a pair (the last counts instead of the sum), a glyph that serves two characters (only the last is kerned), right-to-left values (no number). Proved for usual tables (advance-only values, classes within the coverage, class 0 unkerned) for every pair dealt with once (by one subtable, or by a listed pair followed by classes in the same lookup)."
  },
  {
   "property": "C78",
   "status": "partial",
   "theorems": [
    "C78_default_width",
    "C78_shown_glyphs",
    "C78_descriptor_partial",
    "C78_stem_v_refuted"
   ],
   "note": "Everything proved except StemV: weights 100-800 stay in 50-241, weight 900 gives 265 (refuted). What fontTools makes of the file (subsetting) is data of the model."
  },
  {
   "property": "C79",
   "status": "partial",
   "theorems": [
    "C79_text_inside_partial",
    "C79_text_inside_refuted"
   ],
   "note": "Proved for first-fit paragraphs with every alignment, and for optimal line breaks with left or justified alignment (there a justified line without spaces may stick out). False for optimal line breaks centred or right-aligned (the recorded width lacks the hyphen), and for justified optimal lines without spaces (a long last word is not hyphenated): refuted."
  },
  {
   "property": "C80",
   "status": "partial",
   "theorems": [
    "C80_pages_are_laid_out",
    "C80_writing_finishes_partial",
    "C80_embedded_finishes_partial",
    "C80_standard_fonts",
    "C80_polyline_refuted",
    "C80_wide_word_refuted",
    "C80_rule_refuted"
   ],
   "note": "Exact arithmetic. Not covered: optimal paragraphs after a rule (C80_rule_refuted: with the default settings they can be an IndexError when the rule does not fit; first-fit paragraphs are covered), and ragged optimal paragraphs that change font or size. That a polyline starting with an XY is a TypeError, and that a word wider than its column is a RuntimeError with the default settings, is stated as refutations of the unrestricted claim."
  },
  {
   "property": "C81",
   "status": "proved",
   "theorems": [
    "C81_doubles",
    "C81_room_left",
    "C81_lines_fit"
   ],
   "note": "IEEE-754 binary64 by Flocq, CPython's float floor division modelled step by step; no overflow assumption: the results lie between finite numbers. These two theorems use the standard library's axioms of the real numbers"
  },
  {
   "property": "C82",
   "status": "proved",
   "theorems": [
    "C82_units_doubles",
    "C82_whole",
    "C82_paper_sizes",
    "C82_colours"
   ],
   "note": "Doubles are Flocq's binary64."
  },
  {
   "property": "C83",
   "status": "partial",
   "theorems": [
    "C83_best_partial",
    "C83_grows_stays",
    "C83_best_refuted"
   ],
   "note": "False in general (C83_best_refuted: a line that fits is given up because a hyphen inside its last word is wider than the syllable after it). Proved whenever a line that is too long stays too long when extended, for which C83_grows_stays gives a condition on neighbouring pieces only (no hyphen wider than the syllable after it). Columns may have different widths: a way is judged with the widths of the columns that the actual lines are in."
  },
  {
   "property": "C84",
   "status": "partial",
   "theorems": [
    "C84_first_fit_partial",
    "C84_one_style_partial",
    "C84_justified",
    "C84_optimal_partial",
    "C84_first_fit_refuted",
    "C84_optimal_refuted"
   ],
   "note": "False in general, with the metrics of Helvetica: after a line with a word that is too wide for it, and with optimal line breaks after any line, the next line starts with its T moved left as if it followed the space on the line before; and the indentation is dropped if the first word is too wide. Proved for all other lines; for the exceptions the theorems say how the first character is moved. As in C75 a word may be kerned by itself, except in text in one style that ends at a break. Passages without text excluded."
  },
  {
   "property": "C85",
   "status": "partial",
   "theorems": [
    "C85_no_orphan_at_end",
    "C85_no_orphan_at_start",
    "C85_columns_used_partial",
    "C85_columns_used_refuted"
   ],
   "note": "The claims about orphans are proved. The last one is false: after a first column without room, a fresh column with room for one line only is left empty (C85_columns_used_refuted); it is proved when the columns after the first have room for two lines. The heights of columns are not negative (see C46)."
  },
  {
   "property": "C86",
   "status": "proved",
   "theorems": [
    "C86_page_is_sum",
    "C86_drawing_added",
    "C86_rule",
    "C86_text_as_viewed",
    "C86_paths_as_painted"
   ],
   "note": "For the drawings of the library (drawings defined by users can emit anything). Colours set while a path is being built are accepted by the reader of the specification (see C70)."
  },
  {
   "property": "C87",
   "status": "proved",
   "theorems": [
    "C87_layout",
    "C87_later_items",
    "C87_later_blocks"
   ],
   "note": "The document without the addition is one that can be written. Writes are modelled object by object."
  },
  {
   "property": "C88",
   "status": "proved",
   "theorems": [
    "C88_lines_full",
    "C88_fewest_lines",
    "C88_when_tidy"
   ],
   "note": "In exact arithmetic. Widths are those before justification. That a part of a line is not wider than the line is a hypothesis of the second theorem; C88_when_tidy gives a local condition for it (no hyphen wider than the syllable after it, no kerning wider than the piece before it)."
  },
  {
   "property": "C89",
   "status": "proved",
   "theorems": [
    "C89_paragraphs_read_back",
    "C89_string_read_back",
    "C89_default_style",
    "C89_empty_document",
    "C89_pages_printable",
    "C89_long_word_refuted"
   ],
   "note": "In exact arithmetic, for layouts that terminate (the theorem shows that they do). Assumes that hyphenating only splits words, that inflate undoes compress, that embedded fonts (none is used) are sane. C89_paragraphs_read_back and C89_pages_printable are about any left-aligned paragraphs (first-fit ones may have words of any length). The limit on words is needed: C89_long_word_refuted."
  },
  {
   "property": "C90",
   "status": "proved",
   "theorems": [
    "C90_first_fit_rounding",
    "C90_first_fit_fits",
    "C90_pages_fit",
    "C90_standard_fonts"
   ],
   "note": "The first theorem has the bounds as parameters, the second is the instance with numbers stated in the property. Lines before justification (justification stretches the spaces afterwards). Python 3.12 and later add with compensation in sum(): the model adds in order, as earlier versions do."
  },
  {
   "property": "C91",
   "status": "proved",
   "theorems": [
    "C91_first_fit_never_fails",
    "C91_pages_never_fail",
    "C91_strings",
    "C91_standard_hyphens",
    "C90_pages_fit"
   ],
   "note": "The first theorem is about the lines of one piece of text, with the bounds as parameters; the second about whole pages (modest_block: paragraphs and rules), with the numbers stated in the property; C91_strings shows that any string with words of at most 32 characters and at most 3333 characters meets its hypotheses; C90_pages_fit is the bound of C90 for all lines on the pages. Hyphenators are assumed to split words into nonempty parts (all_split)."
  },
  {
   "property": "C92",
   "status": "proved",
   "theorems": [
    "C92_wider_columns"
   ],
   "note": "In exact arithmetic. The condition on parts of lines is that of C88 (C88_when_tidy gives a local criterion)."
  },
  {
   "property": "C93",
   "status": "proved",
   "theorems": [
    "C93_ragged_rounding",
    "C93_ragged_fits"
   ],
   "note": "The first theorem has the bounds as parameters, the second is the instance with the numbers of the property. Of the lines of one layout by optimum.shape, when it does not raise (C46). Justified lines are not covered: their spaces are stretched after the lines are chosen."
  },
  {
   "property": "C94",
   "status": "proved",
   "theorems": [
    "C94_writing_finishes",
    "C94_embedded_finishes",
    "C94_infinite_size"
   ],
   "note": "The counterpart of C80 for doubles (C80 is about exact numbers, and also covers optimal paragraphs). Only operands of TJ and MediaBox can fail: other numbers are formatted with %g, which writes inf or nan."
  },
  {
   "property": "C95",
   "status": "proved",
   "theorems": [
    "C95_justified_fills"
   ],
   "note": "The counterpart of C39 for doubles: about first-fit lines (optimal lines are scaled, not justified by this function, in doubles only C93 speaks of them)."
  },
  {
   "property": "C96",
   "status": "proved",
   "theorems": [
    "C96_where_columns_are"
   ],
   "note": "Exact arithmetic (in doubles positions are rounded where they are). Relies on functional extensionality (standard library). For what the columns are when a rule does not fit see C51."
  },
  {
   "property": "C97",
   "status": "partial",
   "theorems": [
    "C97_same_file_partial",
    "C97_inside_word_refuted",
    "C97_empty_refuted"
   ],
   "note": "Proved: the whole file is the same when, in any number of paragraphs and Text drawings (of pages and of templates), a span without effect is replaced by its contents or a string is cut (or joined) after a space, hyphen, dash or zero width space, not within spaces, where the fonts have no kerning for the two characters, and the second string does not begin with a line break, or after a line break; the second string is never empty. Refuted inside words (a word in two pieces is broken over lines at other places) and for empty strings (the text after them is lost). Exact arithmetic (only for the comparison of styles and of line heights)."
  },
  {
   "property": "C98",
   "status": "proved",
   "theorems": [
    "C98_scaled",
    "C98_drawings"
   ],
   "note": "For rules and paragraphs of both algorithms, in exact arithmetic: each page and column is the scaled one, with as many blocks, the room left k times as large, and operators that are the same one by one with lengths k times as large (the strings and adjustments written in TJ arrays the same). C98_drawings: the same for drawings."
  },
  {
   "property": "C99",
   "status": "proved",
   "theorems": [
    "C99_other_colours",
    "C99_drawings"
   ],
   "note": "For one-to-one changes of colours, as the property says (where two colours become the same, commands between them are left out, so the operators are not the same one by one). Exact arithmetic (only for the comparison of colours)."
  }
 ]
}