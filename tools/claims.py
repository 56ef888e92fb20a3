c("C01","proved","C01_literal_string_round_trip")
c("C02","proved","C02_hex_string_round_trip")
c("C03","proved","C03_atom_round_trip")
c("C04","partial","C04_real_legal_and_accurate_partial C04_real_plain_range C04_real_exponent_refuted","The full statement is false of the code: %g uses exponent notation for |x| >= 999999.5 and for small |x|; proved for all numbers printed without exponent, refuted outside.")
c("C05","partial","C05_sanitize_name_token_partial C05_sanitize_name_refuted","The full statement is false of the code: PDF delimiters are kept. Proved for all inputs without delimiter; refuted for all inputs with one.")
c("C06","proved","C06_xref_offsets_exact")
c("C07","proved","C07_file_round_trip C07_header")
c("C19","proved","C19_style_or_fields C19_style_monoid C19_style_action")
c("C20","proved","C20_nested_spans C20_span_returns","For any number type whose equality is identity (exact_eq); exact rationals qualify.")
c("C21","partial","C21_squash_simple_partial C21_squash_style_diff C21_squash_chains_refuted","False of the code for nested chains (refuted with a witness); proved for all lists of non-chain commands, which covers everything styles produce.")
c("C22","proved","C22_splitlines C22_no_character_lost")
c("C23","proved","C23_max_lead C23_max_lead_no_text")
c("C14","proved","C14_embedded_text_recoverable")
c("C15","proved","C15_tables_indexed_by_code")
c("C16","proved","C16_utf16be_hex C16_code_bytes")
c("C17","partial","C17_block_limit_partial C17_block_limit_refuted","False of the code: there is always one block; proved up to 100 characters, refuted for every larger set.")
c("C18","proved","C18_builtin_encode")
c("C30","proved","C30_kern_positions")
c("C24","partial","C24_words_total C24_words_keep_text_partial C24_words_keep_text_refuted","False of the code: an empty passage after a word boundary makes the parser drop everything after it. Proved for all passages where that does not happen; refuted for every text of the other kind.")
c("C25","partial","C25_words_keep_style_partial C25_words_keep_style_nonempty C25_words_keep_style_refuted","Full for passages with text. False when a string without text separates two changes of several settings each: the second replaces the first (the defect of C21); in general proved under the hypothesis that merging loses nothing.")
c("C26","proved","C26_syllables C26_never_hyphenate")
c("C27","proved","C27_partitions C27_splits C27_short_words C27_two_letters C27_lowercase_refuted","The refuted theorem shows the stated length hypothesis on lowercasing is needed.")
c("C28","proved","C28_pyphen_partitions C28_no_positions C28_pyphen_nonempty")
c("C29","proved","C29_tj_array C29_tj_of_fragment")
c("C31","proved","C31_width_is_displayed C31_indent_extend")
c("C32","proved","C32_hyphenate_keeps_text C32_hyphenate_fits C32_hyphenate_maximal","Maximality: the next longer part never fits; no longer part at all fits when syllables do not shrink the word.")
c("C33","proved","C33_hyphenate_total")
c("C34","proved","C34_firstfit_keeps_text","any arithmetic; also: words stay executable in order and the end state is kept; justification included")
c("C35","proved","C35_firstfit_lines_fit","exact rationals; also: the width recorded for a line is the displayed width")
c("C36","proved","C36_firstfit_room","exact rationals, line height > 0")
c("C37","partial","C37_firstfit_terminates_partial C37_firstfit_total_partial C37_firstfit_terminates_refuted","the full claim is false: with columns of negative height layout never ends; proved for heights >= 0 (any arithmetic: no divergence; exact rationals: success)")
c("C38","proved","C38_no_orphan_at_end C38_no_orphan_at_start","")
c("C39","proved","C39_firstfit_justified","exact rationals")
c("C40","proved","C40_breaks_partition","any arithmetic")
c("C41","proved","C41_tolerance C41_ratio_fills","the ratio's meaning in exact rationals")
c("C42","partial","C42_optimal_partial C42_optimal_exact_partial C42_no_hyphens_stays C42_widths C42_optimal_refuted","the full claim is false: when a hyphen is wider than the syllable after it, NoFeasibleBreaks is raised although one line fits; proved when adding a fragment to an overfull line leaves it overfull, which holds for fragments of non-negative widths without hyphens")
c("C43","proved","C43_ragged_succeeds C43_justified_succeeds C43_ragged_fails","exact rationals; between the two ragged cases (columns of different widths, a fragment that fits some) either may happen")
c("C44","proved","C44_ragged_lines_fit","exact rationals, heights >= 0")
c("C45","partial","C45_optimum_keeps_text C45_optimum_keeps_style_partial C45_optimum_keeps_style_refuted","the text claim is proved for any arithmetic; the style after each line is kept except when a space alone on a line carries a style change (refuted there)")
c("C46","partial","C46_lines_in_their_columns C46_room_partial C46_room_refuted","proved for heights >= 0; false for a first column of negative height")
c("C47","partial","C47_justified_lines_partial C47_justified_lines_refuted","exact rationals; false exactly when the spaces would have to double")
c("C48","proved","C48_optimum_terminates","any arithmetic")
c("C69","partial","C69_optimum_width_partial C69_optimum_width_refuted C35_firstfit_lines_fit","true for first-fit (second part of C35); the optimal algorithm records the width with the removed space and without the added hyphen")
c("C57","proved","C57_line C57_rect C57_polyline C57_ellipse C57_circle C57_constructors","exact rationals where arithmetic matters")
c("C58","proved","C58_ellipse_in_box C58_ellipse_accurate","exact rationals; the curve is within 0.03 percent of the true ellipse")
c("C59","partial","C59_polyline_points_partial C59_polyline_points_refuted C59_polyline_points_accepted","the full claim is false: Polyline leaves points given as XY/tuple mixed as they are; see the refuted theorem")
c("C60","partial","C60_hex_colours_partial C60_accepted_range_partial C60_ascii_components C60_triples C60_colours_refuted","the full claim is false: odd hex strings and out-of-range numbers are accepted (refuted); proved for well-formed strings and in-range tuples")
c("C61","proved","C61_margin_shorthand C61_margin_number")
c("C62","proved","C62_default_page C62_default_column C62_explicit_columns C62_page_add")
c("C65","proved","C65_componentwise C65_parse C65_indexing C65_arithmetic")
c("C55","partial","C55_text_style_partial C55_constructor C55_text_style_refuted C55_empty_string_refuted","the full claim is false: a string that begins with a line break in a new style is encoded for the old font, or is lost; proved (line by line) when no string is empty or begins with a line break")
c("C56","proved","C56_line_positions C56_text_drawings","exact rationals; for Text drawings also: the width of a line is the displacement of what it shows")
c("C70","partial","C70_text_order C70_drawing_order_partial C70_drawing_order_refuted","text blocks and colourless shapes; false for every coloured shape")
c("C49","proved","C49_fill_pages C49_columns_in_order","any arithmetic")
c("C50","proved","C50_paragraph_adds","any arithmetic")
c("C51","partial","C51_rule_partial C86_rule C51_rule_refuted C51_text_lost_refuted","true (exact rationals) for a rule that fits; whenever it does not fit, the column is emitted twice and the rule lies outside the box: refuted for all such cases, with an example on pages; and text after such a rule can be lost")
c("C52","proved","C52_stacked C52_on_pages","exact rationals; the second theorem is about every column on the pages AutoPage makes from paragraphs")
c("C53","proved","C53_pages C53_text_firstfit C53_text C53_styles","structure: any arithmetic, any paragraphs; text level: for strings that do not begin with a line break (otherwise C55's defect applies); first-fit with styles in any arithmetic; both algorithms in exact rationals when columns are as high as a line, text always, styles if (with optimal line breaks) no space stands alone at the end of a string or line (otherwise the change of style after it can be lost: C45, C54_optimal_refuted)")
c("C54","partial","C54_paragraph_style_partial C54_optimal_partial C54_paragraph_style_refuted C54_optimal_refuted","the full claim is false for the first word of a column, and with optimal line breaks after a space that stands alone; proved for first-fit in any arithmetic, and for both algorithms in exact rationals without such spaces: everything after (a part of) the first word of each column is shown as wanted, and everything if the first word does not change the style")
c("C71","proved","C71_inside_columns","exact rationals; both algorithms")
c("C08","proved","C08_no_pages","An empty document raises; no other raises this error (every AutoPage yields at least one page).")
c("C09","proved","C09_object_ids C09_C06_document_xref","")
c("C10","proved","C10_references","")
c("C11","proved","C11_page_tree","")
c("C12","proved","C12_page_numbers","With C11, the k-th page object has size, rotation and drawings of template(k).")
c("C13","partial","C13_fonts_declared C13_keys_partial C13_keys_refuted","Declared: proved in full. Unique keys: refuted for Symbol and ZapfDingbats, whose four variants share an id; proved for all other fonts, and that duplicates have equal values.")
c("C63","proved","C63_same_bytes","")
c("C64","partial","C64_failed_write_refuted C64_every_failure_refuted","Refuted, as expected: the file is opened before anything is rendered; after every failure the path holds the header and what was written up to then (the other files are intact).")
c("C66","partial","C66_widths_partial C66_integer C66_widths_refuted","Refuted for fractional widths (usual for fonts with 2048 units per em); proved: the error is less than one unit, and none for integral widths.")
c("C67","partial","C67_measured_as_shown_partial C67_measured_as_shown_refuted","Refuted for 19 characters outside cp1252 and for the no-break space; proved for all other characters, in terms of the tables in the code. That the tables have the real metrics of the fonts is not in the code.")
c("C68","proved","C68_kerning_keeps_direction C68_charkern","Finite tables, generated from the source; all characters.")
c("C72","proved","C72_pages_as_read","Hypotheses: numbers that %g prints plainly (see C04), text in Unicode, encoded for the font it is shown in (see C54, C55), font files that can be embedded; zlib is any compression with an inverse.")
c("C73","partial","C73_text_extracted_partial C73_drawings_extracted C73_standard_fonts C73_one_font_partial C73_refuted","Refuted for a text in an embedded font that begins with a line break (the first word is encoded for one font and shown in another). Proved: whenever strings are encoded for the font in effect; for all drawings whose strings begin with text; for all documents in the standard fonts; for all documents whose paragraphs are each in one font, embedded or not.")
c("C74","partial","C74_paragraphs_extracted_partial C74_mixed_fonts_partial C74_refuted","In exact arithmetic, like C53. Proved for paragraphs that are each in one font (embedded or not) or in standard fonts, and for paragraphs in any fonts on pages where no column begins with a word that changes the style (with optimal line breaks also: no space stands alone, see C54); false for a paragraph whose first word changes to an embedded font (its start is encoded for one font and shown in the other): refuted.")
c("C75","partial","C75_words_kerned_partial C75_one_style_partial C75_kerning_refuted","Refuted with the metrics of Helvetica: in 'go To' the T is not kerned with the space. Proved: within words always; every word with the end of the previous word or with nothing; text in one style that ends at a break, as a whole. Exact arithmetic; passages without text excluded.")
c("C76","proved","C76_liang C76_exceptions C76_english","")
c("C77","partial","C77_total C77_kerning_partial C77_missing C77_kerning_refuted","Refuted in three ways: two lookups that both adjust a pair (the last counts instead of the sum), a glyph that serves two characters (only the last is kerned), right-to-left values (no number). Proved for usual tables (advance-only values, classes within the coverage, class 0 unkerned) for every pair dealt with once (by one subtable, or by a listed pair followed by classes in the same lookup).")
c("C78","partial","C78_default_width C78_shown_glyphs C78_descriptor_partial C78_stem_v_refuted","Everything proved except StemV: weights 100-800 stay in 50-241, weight 900 gives 265 (refuted). What fontTools makes of the file (subsetting) is data of the model.")
c("C79","partial","C79_text_inside_partial C79_text_inside_refuted","Proved for first-fit paragraphs with every alignment, and for optimal line breaks with left or justified alignment (there a justified line without spaces may stick out). False for optimal line breaks centred or right-aligned (the recorded width lacks the hyphen), and for justified optimal lines without spaces (a long last word is not hyphenated): refuted.")
c("C80","partial","C80_pages_are_laid_out C80_writing_finishes_partial C80_embedded_finishes_partial C80_standard_fonts C80_polyline_refuted C80_wide_word_refuted C80_rule_refuted","Exact arithmetic. Not covered: optimal paragraphs after a rule (C80_rule_refuted: with the default settings they can be an IndexError when the rule does not fit; first-fit paragraphs are covered), and ragged optimal paragraphs that change font or size. That a polyline starting with an XY is a TypeError, and that a word wider than its column is a RuntimeError with the default settings, is stated as refutations of the unrestricted claim.")
c("C81","proved","C81_doubles C81_room_left C81_lines_fit","IEEE-754 binary64 by Flocq, CPython's float floor division modelled step by step; no overflow assumption: the results lie between finite numbers. These two theorems use the standard library's axioms of the real numbers")
c("C82","proved","C82_units_doubles C82_whole C82_paper_sizes C82_colours","Doubles are Flocq's binary64.")
c("C83","partial","C83_best_partial C83_grows_stays C83_best_refuted","False in general (C83_best_refuted: a line that fits is given up because a hyphen inside its last word is wider than the syllable after it). Proved whenever a line that is too long stays too long when extended, for which C83_grows_stays gives a condition on neighbouring pieces only (no hyphen wider than the syllable after it). Columns may have different widths: a way is judged with the widths of the columns that the actual lines are in.")
c("C84","partial","C84_first_fit_partial C84_one_style_partial C84_justified C84_optimal_partial C84_first_fit_refuted C84_optimal_refuted","False in general, with the metrics of Helvetica: after a line with a word that is too wide for it, and with optimal line breaks after any line, the next line starts with its T moved left as if it followed the space on the line before; and the indentation is dropped if the first word is too wide. Proved for all other lines; for the exceptions the theorems say how the first character is moved. As in C75 a word may be kerned by itself, except in text in one style that ends at a break. Passages without text excluded.")
c("C85","partial","C85_no_orphan_at_end C85_no_orphan_at_start C85_columns_used_partial C85_columns_used_refuted","The claims about orphans are proved. The last one is false: after a first column without room, a fresh column with room for one line only is left empty (C85_columns_used_refuted); it is proved when the columns after the first have room for two lines. The heights of columns are not negative (see C46).")
c("C86","proved","C86_page_is_sum C86_drawing_added C86_rule C86_text_as_viewed C86_paths_as_painted","For the drawings of the library (drawings defined by users can emit anything). Colours set while a path is being built are accepted by the reader of the specification (see C70).")
c("C87","proved","C87_layout C87_later_items C87_later_blocks","The document without the addition is one that can be written. Writes are modelled object by object.")
c("C88","proved","C88_lines_full C88_fewest_lines C88_when_tidy","In exact arithmetic. Widths are those before justification. That a part of a line is not wider than the line is a hypothesis of the second theorem; C88_when_tidy gives a local condition for it (no hyphen wider than the syllable after it, no kerning wider than the piece before it).")
c("C89","proved","C89_paragraphs_read_back C89_string_read_back C89_default_style C89_empty_document C89_pages_printable C89_long_word_refuted","In exact arithmetic, for layouts that terminate (the theorem shows that they do). Assumes that hyphenating only splits words, that inflate undoes compress, that embedded fonts (none is used) are sane. C89_paragraphs_read_back and C89_pages_printable are about any left-aligned paragraphs (first-fit ones may have words of any length). The limit on words is needed: C89_long_word_refuted.")
c("C90","proved","C90_first_fit_rounding C90_first_fit_fits C90_pages_fit C90_standard_fonts","The first theorem has the bounds as parameters, the second is the instance with numbers stated in the property. Lines before justification (justification stretches the spaces afterwards). Python 3.12 and later add with compensation in sum(): the model adds in order, as earlier versions do.")
c("C91","proved","C91_first_fit_never_fails C91_pages_never_fail C91_strings C91_standard_hyphens C90_pages_fit","The first theorem is about the lines of one piece of text, with the bounds as parameters; the second about whole pages (modest_block: paragraphs and rules), with the numbers stated in the property; C91_strings shows that any string with words of at most 32 characters and at most 3333 characters meets its hypotheses; C90_pages_fit is the bound of C90 for all lines on the pages. Hyphenators are assumed to split words into nonempty parts (all_split).")
c("C92","proved","C92_wider_columns","In exact arithmetic. The condition on parts of lines is that of C88 (C88_when_tidy gives a local criterion).")
c("C93","proved","C93_ragged_rounding C93_ragged_fits","The first theorem has the bounds as parameters, the second is the instance with the numbers of the property. Of the lines of one layout by optimum.shape, when it does not raise (C46). Justified lines are not covered: their spaces are stretched after the lines are chosen.")
c("C94","proved","C94_writing_finishes C94_embedded_finishes C94_infinite_size","The counterpart of C80 for doubles (C80 is about exact numbers, and also covers optimal paragraphs). Only operands of TJ and MediaBox can fail: other numbers are formatted with %g, which writes inf or nan.")
c("C95","proved","C95_justified_fills","The counterpart of C39 for doubles: about first-fit lines (optimal lines are scaled, not justified by this function, in doubles only C93 speaks of them).")
c("C96","proved","C96_where_columns_are","Exact arithmetic (in doubles positions are rounded where they are). Relies on functional extensionality (standard library). For what the columns are when a rule does not fit see C51.")
c("C97","partial","C97_same_file_partial C97_inside_word_refuted C97_empty_refuted","Proved: the whole file is the same when, in any number of paragraphs and Text drawings (of pages and of templates), a span without effect is replaced by its contents or a string is cut (or joined) after a space, hyphen, dash or zero width space, not within spaces, where the fonts have no kerning for the two characters, and the second string does not begin with a line break, or after a line break; the second string is never empty. Refuted inside words (a word in two pieces is broken over lines at other places) and for empty strings (the text after them is lost). Exact arithmetic (only for the comparison of styles and of line heights).")
c("C98","proved","C98_scaled C98_drawings","For rules and paragraphs of both algorithms, in exact arithmetic: each page and column is the scaled one, with as many blocks, the room left k times as large, and operators that are the same one by one with lengths k times as large (the strings and adjustments written in TJ arrays the same). C98_drawings: the same for drawings.")
c("C99","proved","C99_other_colours C99_drawings","For one-to-one changes of colours, as the property says (where two colours become the same, commands between them are left out, so the operators are not the same one by one). Exact arithmetic (only for the comparison of colours).")
