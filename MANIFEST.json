{
 "claims": [
  {
   "property": "C01",
   "status": "proved",
   "theorems": [
    "C01_with_data_strip_data",
    "C01_with_data_strip_block",
    "C01_with_data_strip_inline",
    "C01_generic_roundtrip",
    "C01_generic_roundtrip_back"
   ],
   "note": ""
  },
  {
   "property": "C02",
   "status": "proved",
   "theorems": [
    "C02_map_user_data",
    "C02_content_and_data_determine",
    "C02_map_user_data_id",
    "C02_map_user_data_comp"
   ],
   "note": ""
  },
  {
   "property": "C03",
   "status": "proved",
   "theorems": [
    "C03_map_user_data_order",
    "C03_one_datum_per_node"
   ],
   "note": ""
  },
  {
   "property": "C04",
   "status": "proved",
   "theorems": [
    "C04_add_ids",
    "C04_add_ids_to_document",
    "C04_add_ids_generic",
    "C04_ids_distinct",
    "C04_ids_range"
   ],
   "note": ""
  },
  {
   "property": "C05",
   "status": "proved",
   "theorems": [
    "C05_find_all_inlines",
    "C05_find_all_blocks",
    "C05_find_all_inlines_in_block",
    "C05_find_all_inlines_in_list"
   ],
   "note": ""
  },
  {
   "property": "C06",
   "status": "proved",
   "theorems": [
    "C06_find_first_inline",
    "C06_find_first_block",
    "C06_any_inline",
    "C06_any_block",
    "C06_count_inlines",
    "C06_count_blocks"
   ],
   "note": ""
  },
  {
   "property": "C07",
   "status": "proved",
   "theorems": [
    "C07_typed_finders"
   ],
   "note": ""
  },
  {
   "property": "C08",
   "status": "proved",
   "theorems": [
    "C08_visitor_order",
    "C08_events_inlines",
    "C08_events_blocks"
   ],
   "note": ""
  },
  {
   "property": "C09",
   "status": "proved",
   "theorems": [
    "C09_visitor_agrees_with_query_inlines",
    "C09_visitor_agrees_with_query_blocks"
   ],
   "note": ""
  },
  {
   "property": "C10",
   "status": "proved",
   "theorems": [
    "C10_default_transformer_identity"
   ],
   "note": ""
  },
  {
   "property": "C11",
   "status": "proved",
   "theorems": [
    "C11_transform_text",
    "C11_strings_mapped",
    "C11_other_strings_kept",
    "C11_rest_unchanged"
   ],
   "note": ""
  },
  {
   "property": "C12",
   "status": "proved",
   "theorems": [
    "C12_transform_image_urls",
    "C12_transform_link_urls",
    "C12_transform_autolink_urls",
    "C11_strings_mapped",
    "C11_other_strings_kept",
    "C11_rest_unchanged"
   ],
   "note": ""
  },
  {
   "property": "C13",
   "status": "proved",
   "theorems": [
    "C13_transform_code",
    "C13_transform_html",
    "C11_strings_mapped",
    "C11_other_strings_kept",
    "C11_rest_unchanged"
   ],
   "note": ""
  },
  {
   "property": "C14",
   "status": "proved",
   "theorems": [
    "C14_identity",
    "C14_fusion",
    "C14_commute",
    "C14_api_laws"
   ],
   "note": ""
  },
  {
   "property": "C15",
   "status": "proved",
   "theorems": [
    "C15_remove_empty_text",
    "C15_no_blank_text_left",
    "C15_text_kept",
    "C15_idempotent"
   ],
   "note": ""
  },
  {
   "property": "C16",
   "status": "proved",
   "theorems": [
    "C16_canonical",
    "C16_words_kept",
    "C16_words_exist",
    "C16_rest_unchanged",
    "C16_idempotent"
   ],
   "note": ""
  },
  {
   "property": "C17",
   "status": "proved",
   "theorems": [
    "C17_filter_blocks",
    "C17_remove_empty_paragraphs",
    "C17_remove_empty_paragraphs_order"
   ],
   "note": ""
  },
  {
   "property": "C18",
   "status": "proved",
   "theorems": [
    "C18_builder_order",
    "C18_empty",
    "C18_builders",
    "C18_when",
    "C18_when_doc",
    "C18_transform_with",
    "C18_composite_empty",
    "C18_composite_single",
    "C18_composite_sequential"
   ],
   "note": ""
  },
  {
   "property": "C19",
   "status": "proved",
   "theorems": [
    "C19_default_entry_points",
    "C19_default_expansion"
   ],
   "note": ""
  },
  {
   "property": "C20",
   "status": "partial",
   "theorems": [
    "C20_expansion_splices_partial",
    "C20_block_expansion_splices_partial",
    "C20_lists_and_tables_not_expanded_refuted"
   ],
   "note": "Holds for top-level blocks, quotes, footnotes, alerts (exact result given). Refuted for list items and table cells: the code calls expand_block/expand_table_cell there, which default to transform_*, so an overridden walk_expand_inline is not applied."
  },
  {
   "property": "C21",
   "status": "proved",
   "theorems": [
    "C21_default_generic_entry_points",
    "C21_default_generic_transformer",
    "C21_default_generic_expansion"
   ],
   "note": ""
  },
  {
   "property": "C22",
   "status": "proved",
   "theorems": [
    "C22_escape_lexes_as_text",
    "C22_escape_no_markup_char",
    "C22_escape_injective"
   ],
   "note": ""
  },
  {
   "property": "C23",
   "status": "proved",
   "theorems": [
    "C23_well_formed",
    "C23_well_formed_raw"
   ],
   "note": ""
  },
  {
   "property": "C24",
   "status": "proved",
   "theorems": [
    "C24_tags_from_structure",
    "C24_custom_label_refuted"
   ],
   "note": "Proved for all texts, code, URLs, titles and alt texts. C24_custom_label_refuted: the label of a custom alert is output unescaped (hand-built AST only; the parser restricts the label)."
  },
  {
   "property": "C25",
   "status": "proved",
   "theorems": [
    "C25_attributes",
    "C25_plain_attributes",
    "C25_double_escape_refuted"
   ],
   "note": "Exact value proved for every document: tag() escapes attribute values that were already escaped. C25_double_escape_refuted: one decoding of the href of a&b gives a&amp;b."
  },
  {
   "property": "C26",
   "status": "proved",
   "theorems": [
    "C26_width_independent"
   ],
   "note": ""
  },
  {
   "property": "C27",
   "status": "proved",
   "theorems": [
    "C27_index_is_first_reference_order",
    "C27_numbers",
    "C27_no_duplicates",
    "C27_rendered"
   ],
   "note": ""
  },
  {
   "property": "C28",
   "status": "proved",
   "theorems": [
    "C28_direct_references",
    "C28_every_reference_refuted"
   ],
   "note": "Exact characterisation proved for every document and label. C28_every_reference_refuted: references inside emphasis, strong, strikethrough, links are not indexed and vanish."
  },
  {
   "property": "C29",
   "status": "proved",
   "theorems": [
    "C29_lookup",
    "C29_last_definition_wins",
    "C29_unresolved",
    "C29_rendered",
    "C29_unresolved_text_refuted"
   ],
   "note": "Resolution proved for every document and label; what is rendered is C59. C29_unresolved_text_refuted: the text of an unresolved reference is lost."
  },
  {
   "property": "C30",
   "status": "proved",
   "theorems": [
    "C30_panics_iff",
    "C30_never_panics_refuted"
   ],
   "note": "Exact panic condition proved: some displayed table has no rows (rows.first().unwrap())."
  },
  {
   "property": "C31",
   "status": "proved",
   "theorems": [
    "C31_visible_text"
   ],
   "note": ""
  },
  {
   "property": "C32",
   "status": "proved",
   "theorems": [
    "C32_escape_well_formed",
    "C32_escape_injective"
   ],
   "note": ""
  },
  {
   "property": "C33",
   "status": "proved",
   "theorems": [
    "C33_well_formed",
    "C33_undefined_footnote_refuted",
    "C33_code_breaks_out_refuted"
   ],
   "note": "Proved under the stated conditions. The conditions are needed: an undefined footnote reference prints a bare '^', code can end its own environment."
  },
  {
   "property": "C34",
   "status": "proved",
   "theorems": [
    "C34_numbers",
    "C34_numbered_iff_defined",
    "C34_kth_definition",
    "C34_distinct",
    "C34_rendered_reference",
    "C34_rendered_definition"
   ],
   "note": ""
  },
  {
   "property": "C35",
   "status": "proved",
   "theorems": [
    "C35_width"
   ],
   "note": "Stronger than stated: outputs agree position by position except space against newline; also never panics."
  },
  {
   "property": "C36",
   "status": "proved",
   "theorems": [
    "C36_table_aligned",
    "C36_lines_equally_long"
   ],
   "note": ""
  },
  {
   "property": "C37",
   "status": "proved",
   "theorems": [
    "C37_panics_exactly",
    "C37_no_panic",
    "C37_never_panics_refuted"
   ],
   "note": "The exact panic condition is proved for all documents and configurations; C37_no_panic is a simple sufficient condition. C37_never_panics_refuted: quote in a narrow column, ragged table, ordered list at the end of u64, empty list starting at 0."
  },
  {
   "property": "C38",
   "status": "proved",
   "theorems": [
    "C38_wrap",
    "C38_detector",
    "C38_wrap_refuted"
   ],
   "note": "Proved for all texts, widths and configurations. C38_wrap_refuted: the list misses >a, 1), <div>, [x]:, [^x]:, ===, --."
  },
  {
   "property": "C39",
   "status": "proved",
   "theorems": [
    "C39_width_only_blanks",
    "C39_width_no_panic",
    "C39_tokens_faithful"
   ],
   "note": "Proved for alerts too (they are laid out at a fixed width of 80)."
  },
  {
   "property": "C40",
   "status": "proved",
   "theorems": [
    "C40_items",
    "C40_numeral"
   ],
   "note": "Stated for a document that is one list; nested lists are covered by C66."
  },
  {
   "property": "C41",
   "status": "partial",
   "theorems": [
    "C41_round_trip",
    "C41_prints",
    "C41_idempotent",
    "C41_injective",
    "C41_any_width",
    "C41_round_trip_refuted",
    "C41_nested_list_refuted",
    "C41_list_code_refuted",
    "C41_left_alignment_refuted",
    "C41_quoted_label_refuted",
    "C41_footnote_refuted",
    "C41_growing_refuted"
   ],
   "note": "C41_round_trip / C41_idempotent / C41_prints / C41_any_width hold for the fragment SpecRound.plain_document (blocks: paragraphs, headings, thematic breaks, code, nested quotes, nested bullet/ordered/task lists, GitHub alerts, tables, link definitions; inlines: everything but raw HTML and Empty, with the side conditions in SpecRound.rich). C41_round_trip_refuted shows the claim for all parsed documents is false (escaped '#'); C41_nested_list_refuted and C41_list_code_refuted show why nested lists need the indentation condition and code is not allowed in items. C41_left_alignment_refuted: left-aligned columns lose their alignment. C41_quoted_label_refuted: a definition's label must not be wrapped in a quote. HTML blocks with an end mark (comments, processing instructions, CDATA, declarations, script/style/pre) are in the fragment, anywhere if on one line and at the top level otherwise; C41_growing_refuted shows why: a quoted comment of several lines grows by a space with every formatting. Blocks of tags (div, details, p, ...) are in it at the top level. So is HTML that begins with any other complete tag (kind 7), up to and including its blank line. Not in the fragment: footnote definitions, and HTML of the last kind that is only ended by the end of the document."
  },
  {
   "property": "C42",
   "status": "proved",
   "theorems": [
    "C42_parse_total",
    "C42_default_total",
    "C42_terminates",
    "C42_ignored_text_fails"
   ],
   "note": ""
  },
  {
   "property": "C43",
   "status": "proved",
   "theorems": [
    "C43_inline_consumes_all"
   ],
   "note": ""
  },
  {
   "property": "C44",
   "status": "proved",
   "theorems": [
    "C44_rest_blank",
    "C44_many0_succeeds"
   ],
   "note": ""
  },
  {
   "property": "C45",
   "status": "proved",
   "theorems": [
    "C45_heading_levels",
    "C45_heading_levels_user"
   ],
   "note": ""
  },
  {
   "property": "C46",
   "status": "proved",
   "theorems": [
    "C46_tables_rectangular",
    "C46_tables_rectangular_user"
   ],
   "note": ""
  },
  {
   "property": "C47",
   "status": "proved",
   "theorems": [
    "C47_texts_merged",
    "C47_texts_merged_user"
   ],
   "note": ""
  },
  {
   "property": "C48",
   "status": "proved",
   "theorems": [
    "C48_merge_joins",
    "C48_merge_unique",
    "C48_merge_idempotent"
   ],
   "note": ""
  },
  {
   "property": "C49",
   "status": "proved",
   "theorems": [
    "C49_lists",
    "C49_lists_user",
    "C49_start"
   ],
   "note": ""
  },
  {
   "property": "C50",
   "status": "proved",
   "theorems": [
    "C50_no_switched_off_block",
    "C50_no_switched_off_inline",
    "C50_no_switched_off_user"
   ],
   "note": "All kinds but text and paragraph (their switches do not govern all such nodes: C52)."
  },
  {
   "property": "C51",
   "status": "proved",
   "theorems": [
    "C51_skip_leaves_empty"
   ],
   "note": ""
  },
  {
   "property": "C52",
   "status": "proved",
   "theorems": [
    "C52_paragraph_switch_refuted",
    "C52_setext_switch_refuted",
    "C52_text_switch_refuted",
    "C52_paragraphs"
   ],
   "note": "Exact behaviour proved for every source and every configuration whose hooks act element by element. Refuted claims: heading_v2_or_paragraph is tried before paragraph, so the setext switch governs ordinary paragraphs; environment variables are texts that bypass the text switch."
  },
  {
   "property": "C53",
   "status": "proved",
   "theorems": [
    "C53_identity_hooks"
   ],
   "note": ""
  },
  {
   "property": "C54",
   "status": "proved",
   "theorems": [
    "C54_marker_exact",
    "C54_standard_any_case",
    "C54_custom_name",
    "C54_custom_refuted"
   ],
   "note": "Exact characterisation proved. C54_custom_refuted: custom names that begin with a standard name ([!NOTES]) are not recognised."
  },
  {
   "property": "C55",
   "status": "proved",
   "theorems": [
    "C55_html",
    "C55_latex",
    "C55_markdown",
    "C55_markdown_renders",
    "C55_overflow_reachable"
   ],
   "note": ""
  },
  {
   "property": "C56",
   "status": "proved",
   "theorems": [
    "C56_code_span_exact",
    "C56_code_span_inline",
    "C56_fenced_block",
    "C56_code_round_trip",
    "C56_unclosed_refuted"
   ],
   "note": "Code spans: exact characterisation. Fenced blocks: every closed fence of ` or ~ at any width >= 3, indentation <= 3; print-then-parse. C56_unclosed_refuted records that an unclosed fence is read as a paragraph (CommonMark reads a code block)."
  },
  {
   "property": "C57",
   "status": "proved",
   "theorems": [
    "C57_decimal",
    "C57_hexadecimal",
    "C57_nothing_else",
    "C57_decoded_in_text",
    "C57_kept_in_text"
   ],
   "note": ""
  },
  {
   "property": "C58",
   "status": "proved",
   "theorems": [
    "C58_label_exact"
   ],
   "note": ""
  },
  {
   "property": "C59",
   "status": "proved",
   "theorems": [
    "C59_html_view"
   ],
   "note": ""
  },
  {
   "property": "C60",
   "status": "proved",
   "theorems": [
    "C60_latex_view",
    "C60_last_definition_wins",
    "C60_rendered_reference"
   ],
   "note": ""
  },
  {
   "property": "C61",
   "status": "proved",
   "theorems": [
    "C61_hooks_map_the_tree",
    "C61_hooks_same_success"
   ],
   "note": ""
  },
  {
   "property": "C62",
   "status": "proved",
   "theorems": [
    "C62_no_inline_html"
   ],
   "note": ""
  },
  {
   "property": "C63",
   "status": "proved",
   "theorems": [
    "C63_alert_hook_refuted",
    "C63_alert_hook_is_parse"
   ],
   "note": "Proved for every input and hook; conditional_block_vec treats Map and FlatMap as Parse."
  },
  {
   "property": "C64",
   "status": "partial",
   "theorems": [
    "C64_behind_text_refuted",
    "C64_escape_at_start_partial",
    "C64_escape_in_text_refuted"
   ],
   "note": "Proved at the start of a text; refuted after other text: C64_behind_text_refuted shows for every plain text, every escaped character and everything that follows that the backslash is kept (not_a_text does not stop at escapes)."
  },
  {
   "property": "C65",
   "status": "partial",
   "theorems": [
    "C65_heading_in_quote_refuted",
    "C65_quoting_partial",
    "C65_indented_partial"
   ],
   "note": "Refuted for '> ': blockquote keeps the space after > and heading_v1 accepts no indentation (C65_heading_in_quote_refuted); for every line beginning with # after '> ' the result is a quote with one paragraph (C65_indented_partial). True with a bare '>': for every source, prefixing each line with > makes a quote of exactly the blocks of the source (C65_quoting_partial)."
  },
  {
   "property": "C66",
   "status": "proved",
   "theorems": [
    "C66_output_is_view",
    "C66_lines"
   ],
   "note": ""
  },
  {
   "property": "C67",
   "status": "proved",
   "theorems": [
    "C67_soft_breaks",
    "C67_references_refuted"
   ],
   "note": "Proved as stated, with the proviso on references; C67_references_refuted shows the proviso is needed."
  },
  {
   "property": "C68",
   "status": "proved",
   "theorems": [
    "C68_layout",
    "C68_paragraph",
    "C68_quote",
    "C68_within_width",
    "C68_any_paragraph",
    "C68_nested_quote_refuted"
   ],
   "note": "C68_layout: exact greedy layout of every document; C68_any_paragraph, C68_paragraph, C68_quote, C68_within_width spell it out for paragraphs in terms of words. C68_nested_quote_refuted: that no line exceeds the configured width is false for nested quotes (stated so in the property)."
  },
  {
   "property": "C69",
   "status": "proved",
   "theorems": [
    "C69_inline_syntax",
    "C69_one_reading"
   ],
   "note": "Exact: the parser accepts a string with a result iff the declarative grammar of SpecInline.v derives it."
  },
  {
   "property": "C70",
   "status": "proved",
   "theorems": [
    "C70_block_syntax",
    "C70_one_reading",
    "C70_one_block"
   ],
   "note": "Exact: parse_markdown accepts an input with result d iff the declarative block grammar of SpecBlock.v derives the blocks of d (and C70_one_reading: exactly one derivation result exists for every input)."
  },
  {
   "property": "C71",
   "status": "proved",
   "theorems": [
    "C71_returns",
    "C71_panics",
    "C71_fresh",
    "C71_peek"
   ],
   "note": "All histories; panic condition exact."
  },
  {
   "property": "C72",
   "status": "proved",
   "theorems": [
    "C72_one_visitor_many_documents"
   ],
   "note": ""
  },
  {
   "property": "C73",
   "status": "proved",
   "theorems": [
    "C73_parser_settings",
    "C73_parser_exchange",
    "C73_parser_override",
    "C73_markdown_settings",
    "C73_html_settings",
    "C73_latex_settings",
    "C73_no_space_stays"
   ],
   "note": "All 26 parser builder methods and the 8 of the printers; hooks/custom parsers are values here (C50-C53, C61 say what they do)."
  },
  {
   "property": "C74",
   "status": "proved",
   "theorems": [
    "C74_shape",
    "C74_empty_iff_blank"
   ],
   "note": "Derived from the grammar (C69, C70) by induction on derivations; default configuration, any tables (entity values non-empty)."
  },
  {
   "property": "C75",
   "status": "proved",
   "theorems": [
    "C75_local",
    "C75_trigger_inline",
    "C75_trigger_block",
    "C75_rejecting"
   ],
   "note": "Custom parsers as pure functions that consume something when they accept (custom_ok); stateful FnMut closures are outside of the model."
  },
  {
   "property": "C76",
   "status": "partial",
   "theorems": [
    "C76_no_override_partial",
    "C76_inside_text_partial",
    "C76_at_start_partial",
    "C76_block_at_start_partial",
    "C76_override_refuted",
    "C76_mid_text_refuted"
   ],
   "note": "The README claim is refuted (C76_override_refuted, C76_mid_text_refuted). The _partial theorems say where custom parsers are and are not consulted, for all custom parsers."
  },
  {
   "property": "C77",
   "status": "proved",
   "theorems": [
    "C77_no_invention"
   ],
   "note": "Alert names (upper-cased, C54) are not among the strings considered; sources with \"&\" can decode to other characters (C77_reference)."
  },
  {
   "property": "C78",
   "status": "proved",
   "theorems": [
    "C78_plain",
    "C78_plain_nodes",
    "C78_generic",
    "C78_ids",
    "C78_injective"
   ],
   "note": "Data-model level (externally tagged enums, maps of fields): the text of JSON and its nesting limit in a reader are outside the model."
  },
  {
   "property": "C79",
   "status": "proved",
   "theorems": [
    "C79_user_data_optional"
   ],
   "note": "Same model as C78."
  },
  {
   "property": "C80",
   "status": "partial",
   "theorems": [
    "C80_line_endings_partial",
    "C80_same_lines_partial",
    "C80_html_refuted",
    "C80_definition_refuted"
   ],
   "note": "Proved for every source when HTML blocks are off or the source has no '<' in front of a letter, '/', '!' or '?', and definitions (link and footnote) are off or the source has no ']:'. Without these conditions the claim is refuted: HTML blocks and multi-line labels/titles keep the source's line endings verbatim (C80_html_refuted, C80_definition_refuted)."
  },
  {
   "property": "C81",
   "status": "proved",
   "theorems": [
    "C81_leading_blank_lines"
   ],
   "note": "Unconditional for custom_ok configurations; equality of the whole result including failures."
  },
  {
   "property": "C82",
   "status": "partial",
   "theorems": [
    "C82_final_newline_partial",
    "C82_final_newlines_partial",
    "C82_final_newline_refuted"
   ],
   "note": "Proved on the grammar of C70 for every source meeting the three conditions. Without any one of them the claim is refuted (C82_final_newline_refuted): HTML blocks keep the line feed, a backslash at the end of a link destination escapes it, and CR LF is one line ending."
  },
  {
   "property": "C83",
   "status": "proved",
   "theorems": [
    "C83_blind_closures",
    "C83_total",
    "C83_state_moves",
    "C83_invariant",
    "C83_no_closures"
   ],
   "note": "About the state-passing model of the parser (EffParser.v), for arbitrary closures and state types; C83_blind_closures transfers every theorem about parse_markdown."
  },
  {
   "property": "C84",
   "status": "partial",
   "theorems": [
    "C84_seen_partial",
    "C84_quotes_refuted",
    "C84_brackets_refuted",
    "C84_reference_refuted"
   ],
   "note": "At least once is proved for every kind but texts (merged after the hook), GitHub alerts (hook never called, C63) and the inner element of ***a***. At most once is refuted: 2^n calls for n nested quotes, 8^n for n+1 opening brackets, although the documents contain a single text."
  },
  {
   "property": "C85",
   "status": "partial",
   "theorems": [
    "C85_append_partial",
    "C85_join_partial",
    "C85_join_all_partial",
    "C85_append_refuted"
   ],
   "note": "Proved on the grammar of C70 for first sources that leave nothing open (every fence closed; no line beginning with a tag - < in front of a letter, /, ! or ? - where HTML blocks are read, or, where definitions are read, with an incomplete label - [ whose first ] is missing or escaped - or a definition, other than of a footnote, with a quotation mark, parenthesis or backslash before the next empty line) and second sources that are not indented where lists are read; also for any number of such sources. Without these conditions the claim is refuted (C85_append_refuted): a fence, an HTML comment, a label or title of a definition, a label of a footnote, and a list item reach across the blank line."
  },
  {
   "property": "C86",
   "status": "proved",
   "theorems": [
    "C86_document",
    "C86_nodes",
    "C86_generic",
    "C86_unambiguous",
    "C86_rejected",
    "C86_written",
    "C86_normal_form"
   ],
   "note": "Exact (both directions) at the data-model level; the text of JSON (escapes, number syntax, nesting limit of a reader) is outside the model. The derived code is modelled by its documented conventions, serde_derive itself is not."
  },
  {
   "property": "C87",
   "status": "proved",
   "theorems": [
    "C87_methods_called",
    "C87_generic_methods_called",
    "C87_parts",
    "C87_traits_agree"
   ],
   "note": "Recording implementations of all methods of both traits; the recorded calls are the document-order events, also those of the visitor (C08)."
  },
  {
   "property": "C88",
   "status": "proved",
   "theorems": [
    "C88_rebuilt",
    "C88_generic_rebuilt",
    "C88_parts"
   ],
   "note": "For every family of functions, both traits, whole documents, blocks and inlines."
  },
  {
   "property": "C89",
   "status": "partial",
   "theorems": [
    "C89_generic_expansion_partial",
    "C89_generic_never_consulted_refuted",
    "C89_documented_example_refuted",
    "C89_generic_not_everywhere_refuted",
    "C89_never_consulted_refuted",
    "C89_inline_expansion_refuted"
   ],
   "note": "False in general, refuted: four methods of the generic trait (among them expand_block, which the module documentation overrides) and eleven of the plain trait are never consulted; nothing inside list items, headings, links is expanded. Proved: the exact result of expand_with for the generic trait with its expansion methods replaced (C89_generic_expansion_partial); the plain trait is C20."
  },
  {
   "property": "C90",
   "status": "partial",
   "theorems": [
    "C90_inline_methods_partial",
    "C90_generic_methods_partial",
    "C90_block_methods_refuted",
    "C90_generic_inline_method_refuted"
   ],
   "note": "False in general, refuted for transform_block, transform_document, transform_heading and, in the generic trait, transform_inline. Proved, with state, when only the inline-level methods (plain) or all but the document, block and inline methods (generic) are overridden."
  },
  {
   "property": "C91",
   "status": "proved",
   "theorems": [
    "C91_documents",
    "C91_blocks",
    "C91_quote",
    "C91_untidy_refuted"
   ],
   "note": "Proved for every document whose first part is tidy; C91_untidy_refuted shows that the condition is needed."
  },
  {
   "property": "C92",
   "status": "proved",
   "theorems": [
    "C92_nothing_lost",
    "C92_no_tables"
   ],
   "note": "All sources without '&', all configurations of Parse and Ignore. The case table of characters beyond ASCII must not produce '[', '!', ']' or nothing (sane_upper), which holds of Unicode. C92_no_tables: without '|' the exception for table rows does not arise."
  },
  {
   "property": "C93",
   "status": "proved",
   "theorems": [
    "C93_harmless"
   ],
   "note": "All sources; HTML blocks Ignore or Skip, no user code. C93_html_on shows the hypothesis is needed, C93_script_url that destinations are not filtered."
  },
  {
   "property": "C94",
   "status": "proved",
   "theorems": [
    "C94_commands"
   ],
   "note": "All sources; code blocks Ignore or Skip, no user code. C94_code_on shows that the hypothesis is needed (a code block can leave the verbatim environment)."
  },
  {
   "property": "C95",
   "status": "proved",
   "theorems": [
    "C95_html",
    "C95_latex",
    "C95_definition_refuted"
   ],
   "note": "C95_html, C95_latex. C95_definition_refuted and C95_footnotes show that the condition is needed."
  },
  {
   "property": "C96",
   "status": "proved",
   "theorems": [
    "C96_any_layout",
    "C96_unambiguous",
    "C96_formatting",
    "C96_last_format_wins",
    "C96_prose"
   ],
   "note": "the fragment is that of C41 (the claim for all documents fails with C41); C96_prose is exact, without re-wrapping"
  },
  {
   "property": "C97",
   "status": "proved",
   "theorems": [
    "C97_no_anchors",
    "C97_footnote_target_refuted"
   ],
   "note": "a defect of the code: footnote definitions carry no anchor"
  },
  {
   "property": "C98",
   "status": "proved",
   "theorems": [
    "C98_data_placed",
    "C98_default_data",
    "C98_spread_refuted"
   ],
   "note": ""
  },
  {
   "property": "C99",
   "status": "partial",
   "theorems": [
    "C99_linear_partial",
    "C99_quadratic_partial",
    "C99_exponential_partial",
    "C99_table_refuted",
    "C99_reference_refuted"
   ],
   "note": "Refuted in general: tables are quadratic (short rows are filled up, C99_table_refuted), nested reference links exponential (C99_reference_refuted, k limited to 44 by the label limit of 1000). Proved: factor 6 without reference links and tables, quadratic without reference links, exponential in general. Assumes that entity values are no longer than their names and that upper-casing yields at most 3 characters."
  },
  {
   "property": "C100",
   "status": "proved",
   "theorems": [
    "C100_unused_constructs",
    "C100_builders",
    "C100_plain_source"
   ],
   "note": "C100_builders goes through all builders; texts, paragraphs, setext headings and hard line breaks have no characters of their own and are kept equal. Code blocks: no fence character, tab or four spaces in a row."
  },
  {
   "property": "C101",
   "status": "proved",
   "theorems": [
    "C101_any_alphabet",
    "C101_like_characters"
   ],
   "note": "the condition on '&' is needed (C101_references): a character reference denotes a character the replacement does not see"
  },
  {
   "property": "C102",
   "status": "proved",
   "theorems": [
    "C102_html",
    "C102_latex",
    "C102_markdown",
    "C102_source_to_output"
   ],
   "note": "equal display widths are needed (C102_width_matters); the HTML anchor prefix is respelled with the document"
  },
  {
   "property": "C103",
   "status": "proved",
   "theorems": [
    "C103_wrapping_html",
    "C103_wrapping_latex",
    "C103_formatted_html",
    "C103_formatted_latex",
    "C103_wrapped_label_refuted"
   ],
   "note": "labels of references and definitions must not contain blanks (firm): without that C103_wrapped_label_refuted. The comparison identifies line breaks with spaces everywhere in the output; code and HTML blocks are equal in the documents compared (C41)"
  },
  {
   "property": "C104",
   "status": "proved",
   "theorems": [
    "C104_html",
    "C104_latex",
    "C104_merged_refuted"
   ],
   "note": "one_to_one is needed (C104_merged_refuted); for LaTeX unresolved references are shown with their labels, hence `defined`"
  },
  {
   "property": "C105",
   "status": "proved",
   "theorems": [
    "C105_html_meaning",
    "C105_latex_meaning",
    "C105_prose",
    "C105_plain_text"
   ],
   "note": "End-to-end: layout -> parse -> HTML/LaTeX. Labels must not contain blanks because of C103_wrapped_label_refuted; HTML blocks must be well-formed because they are copied verbatim."
  },
  {
   "property": "C106",
   "status": "proved",
   "theorems": [
    "C106_depth",
    "C106_bound_reached"
   ],
   "note": "The bound is exact (C106_bound_reached)."
  },
  {
   "property": "C107",
   "status": "proved",
   "theorems": [
    "C107_html_size",
    "C107_html_quadratic",
    "C107_html_linear",
    "C107_html_refuted",
    "C107_source_linear",
    "C107_source_polynomial",
    "C107_latex_size",
    "C107_latex_quadratic",
    "C107_latex_linear",
    "C107_latex_refuted",
    "C107_source_latex"
   ],
   "note": "Refuted part: linear with definitions (C107_html_refuted, C107_latex_refuted). The source-level bounds need reference links switched off, because documents can otherwise be exponentially large (C99)."
  }
 ]
}