{
 "C13": {
  "also": [
   "C11_strings_mapped",
   "C11_other_strings_kept",
   "C11_rest_unchanged"
  ]
 },
 "C12": {
  "also": [
   "C11_strings_mapped",
   "C11_other_strings_kept",
   "C11_rest_unchanged"
  ]
 },
 "C20": {
  "status": "partial",
  "note": "Holds for top-level blocks, quotes, footnotes, alerts (exact result given). Refuted for list items and table cells: the code calls expand_block/expand_table_cell there, which default to transform_*, so an overridden walk_expand_inline is not applied."
 },
 "C24": {
  "status": "proved",
  "note": "Proved for all texts, code, URLs, titles and alt texts. C24_custom_label_refuted: the label of a custom alert is output unescaped (hand-built AST only; the parser restricts the label)."
 },
 "C25": {
  "status": "proved",
  "note": "Exact value proved for every document: tag() escapes attribute values that were already escaped. C25_double_escape_refuted: one decoding of the href of a&b gives a&amp;b."
 },
 "C28": {
  "status": "proved",
  "note": "Exact characterisation proved for every document and label. C28_every_reference_refuted: references inside emphasis, strong, strikethrough, links are not indexed and vanish."
 },
 "C29": {
  "status": "proved",
  "note": "Resolution proved for every document and label; what is rendered is C59. C29_unresolved_text_refuted: the text of an unresolved reference is lost."
 },
 "C30": {
  "status": "proved",
  "note": "Exact panic condition proved: some displayed table has no rows (rows.first().unwrap())."
 },
 "C33": {
  "status": "proved",
  "note": "Proved under the stated conditions. The conditions are needed: an undefined footnote reference prints a bare '^', code can end its own environment."
 },
 "C35": {
  "note": "Stronger than stated: outputs agree position by position except space against newline; also never panics."
 },
 "C50": {
  "note": "All kinds but text and paragraph (their switches do not govern all such nodes: C52)."
 },
 "C52": {
  "status": "proved",
  "note": "Exact behaviour proved for every source and every configuration whose hooks act element by element. Refuted claims: heading_v2_or_paragraph is tried before paragraph, so the setext switch governs ordinary paragraphs; environment variables are texts that bypass the text switch."
 },
 "C54": {
  "status": "proved",
  "note": "Exact characterisation proved. C54_custom_refuted: custom names that begin with a standard name ([!NOTES]) are not recognised."
 },
 "C63": {
  "status": "proved",
  "note": "Proved for every input and hook; conditional_block_vec treats Map and FlatMap as Parse."
 },
 "C64": {
  "status": "partial",
  "note": "Proved at the start of a text; refuted after other text: C64_behind_text_refuted shows for every plain text, every escaped character and everything that follows that the backslash is kept (not_a_text does not stop at escapes)."
 },
 "C65": {
  "status": "partial",
  "note": "Refuted for '> ': blockquote keeps the space after > and heading_v1 accepts no indentation (C65_heading_in_quote_refuted); for every line beginning with # after '> ' the result is a quote with one paragraph (C65_indented_partial). True with a bare '>': for every source, prefixing each line with > makes a quote of exactly the blocks of the source (C65_quoting_partial)."
 },
 "C37": {
  "status": "proved",
  "note": "The exact panic condition is proved for all documents and configurations; C37_no_panic is a simple sufficient condition. C37_never_panics_refuted: quote in a narrow column, ragged table, ordered list at the end of u64, empty list starting at 0."
 },
 "C38": {
  "status": "proved",
  "note": "Proved for all texts, widths and configurations. C38_wrap_refuted: the list misses >a, 1), <div>, [x]:, [^x]:, ===, --."
 },
 "C39": {
  "note": "Proved for alerts too (they are laid out at a fixed width of 80)."
 },
 "C40": {
  "note": "Stated for a document that is one list; nested lists are covered by C66."
 },
 "C41": {
  "status": "partial",
  "note": "C41_round_trip / C41_idempotent / C41_prints / C41_any_width hold for the fragment SpecRound.plain_document (blocks: paragraphs, headings, thematic breaks, code, nested quotes, nested bullet/ordered/task lists, GitHub alerts, tables, link definitions; inlines: everything but raw HTML and Empty, with the side conditions in SpecRound.rich). C41_round_trip_refuted shows the claim for all parsed documents is false (escaped '#'); C41_nested_list_refuted and C41_list_code_refuted show why nested lists need the indentation condition and code is not allowed in items. C41_left_alignment_refuted: left-aligned columns lose their alignment. C41_quoted_label_refuted: a definition's label must not be wrapped in a quote. HTML blocks with an end mark (comments, processing instructions, CDATA, declarations, script/style/pre) are in the fragment, anywhere if on one line and at the top level otherwise; C41_growing_refuted shows why: a quoted comment of several lines grows by a space with every formatting. Blocks of tags (div, details, p, ...) are in it at the top level. So is HTML that begins with any other complete tag (kind 7), up to and including its blank line. Not in the fragment: footnote definitions, and HTML of the last kind that is only ended by the end of the document."
 },
 "C56": {
  "status": "proved",
  "note": "Code spans: exact characterisation. Fenced blocks: every closed fence of ` or ~ at any width >= 3, indentation <= 3; print-then-parse. C56_unclosed_refuted records that an unclosed fence is read as a paragraph (CommonMark reads a code block)."
 },
 "C67": {
  "status": "proved",
  "note": "Proved as stated, with the proviso on references; C67_references_refuted shows the proviso is needed."
 },
 "C68": {
  "status": "proved",
  "note": "C68_layout: exact greedy layout of every document; C68_any_paragraph, C68_paragraph, C68_quote, C68_within_width spell it out for paragraphs in terms of words. C68_nested_quote_refuted: that no line exceeds the configured width is false for nested quotes (stated so in the property)."
 },
 "C69": {
  "note": "Exact: the parser accepts a string with a result iff the declarative grammar of SpecInline.v derives it."
 },
 "C70": {
  "note": "Exact: parse_markdown accepts an input with result d iff the declarative block grammar of SpecBlock.v derives the blocks of d (and C70_one_reading: exactly one derivation result exists for every input)."
 },
 "C71": {
  "status": "proved",
  "note": "All histories; panic condition exact."
 },
 "C72": {
  "status": "proved",
  "note": ""
 },
 "C73": {
  "status": "proved",
  "note": "All 26 parser builder methods and the 8 of the printers; hooks/custom parsers are values here (C50-C53, C61 say what they do)."
 },
 "C74": {
  "status": "proved",
  "note": "Derived from the grammar (C69, C70) by induction on derivations; default configuration, any tables (entity values non-empty)."
 },
 "C75": {
  "status": "proved",
  "note": "Custom parsers as pure functions that consume something when they accept (custom_ok); stateful FnMut closures are outside of the model."
 },
 "C76": {
  "status": "partial",
  "note": "The README claim is refuted (C76_override_refuted, C76_mid_text_refuted). The _partial theorems say where custom parsers are and are not consulted, for all custom parsers."
 },
 "C77": {
  "status": "proved",
  "note": "Alert names (upper-cased, C54) are not among the strings considered; sources with \"&\" can decode to other characters (C77_reference)."
 },
 "C78": {
  "status": "proved",
  "note": "Data-model level (externally tagged enums, maps of fields): the text of JSON and its nesting limit in a reader are outside the model."
 },
 "C79": {
  "status": "proved",
  "note": "Same model as C78."
 },
 "C80": {
  "status": "partial",
  "note": "Proved for every source when HTML blocks are off or the source has no '<' in front of a letter, '/', '!' or '?', and definitions (link and footnote) are off or the source has no ']:'. Without these conditions the claim is refuted: HTML blocks and multi-line labels/titles keep the source's line endings verbatim (C80_html_refuted, C80_definition_refuted)."
 },
 "C81": {
  "status": "proved",
  "note": "Unconditional for custom_ok configurations; equality of the whole result including failures."
 },
 "C82": {
  "status": "partial",
  "note": "Proved on the grammar of C70 for every source meeting the three conditions. Without any one of them the claim is refuted (C82_final_newline_refuted): HTML blocks keep the line feed, a backslash at the end of a link destination escapes it, and CR LF is one line ending."
 },
 "C83": {
  "status": "proved",
  "note": "About the state-passing model of the parser (EffParser.v), for arbitrary closures and state types; C83_blind_closures transfers every theorem about parse_markdown."
 },
 "C84": {
  "status": "partial",
  "note": "At least once is proved for every kind but texts (merged after the hook), GitHub alerts (hook never called, C63) and the inner element of ***a***. At most once is refuted: 2^n calls for n nested quotes, 8^n for n+1 opening brackets, although the documents contain a single text."
 },
 "C85": {
  "status": "partial",
  "note": "Proved on the grammar of C70 for first sources that leave nothing open (every fence closed; no line beginning with a tag - < in front of a letter, /, ! or ? - where HTML blocks are read, or, where definitions are read, with an incomplete label - [ whose first ] is missing or escaped - or a definition, other than of a footnote, with a quotation mark, parenthesis or backslash before the next empty line) and second sources that are not indented where lists are read; also for any number of such sources. Without these conditions the claim is refuted (C85_append_refuted): a fence, an HTML comment, a label or title of a definition, a label of a footnote, and a list item reach across the blank line."
 },
 "C86": {
  "status": "proved",
  "note": "Exact (both directions) at the data-model level; the text of JSON (escapes, number syntax, nesting limit of a reader) is outside the model. The derived code is modelled by its documented conventions, serde_derive itself is not."
 },
 "C87": {
  "status": "proved",
  "note": "Recording implementations of all methods of both traits; the recorded calls are the document-order events, also those of the visitor (C08)."
 },
 "C88": {
  "status": "proved",
  "note": "For every family of functions, both traits, whole documents, blocks and inlines."
 },
 "C89": {
  "status": "partial",
  "note": "False in general, refuted: four methods of the generic trait (among them expand_block, which the module documentation overrides) and eleven of the plain trait are never consulted; nothing inside list items, headings, links is expanded. Proved: the exact result of expand_with for the generic trait with its expansion methods replaced (C89_generic_expansion_partial); the plain trait is C20."
 },
 "C90": {
  "status": "partial",
  "note": "False in general, refuted for transform_block, transform_document, transform_heading and, in the generic trait, transform_inline. Proved, with state, when only the inline-level methods (plain) or all but the document, block and inline methods (generic) are overridden."
 },
 "C91": {
  "status": "proved",
  "note": "Proved for every document whose first part is tidy; C91_untidy_refuted shows that the condition is needed."
 },
 "C92": {
  "status": "proved",
  "note": "All sources without '&', all configurations of Parse and Ignore. The case table of characters beyond ASCII must not produce '[', '!', ']' or nothing (sane_upper), which holds of Unicode. C92_no_tables: without '|' the exception for table rows does not arise."
 },
 "C93": {
  "status": "proved",
  "note": "All sources; HTML blocks Ignore or Skip, no user code. C93_html_on shows the hypothesis is needed, C93_script_url that destinations are not filtered."
 },
 "C94": {
  "status": "proved",
  "note": "All sources; code blocks Ignore or Skip, no user code. C94_code_on shows that the hypothesis is needed (a code block can leave the verbatim environment)."
 },
 "C95": {
  "status": "proved",
  "note": "C95_html, C95_latex. C95_definition_refuted and C95_footnotes show that the condition is needed."
 },
 "C96": {
  "status": "proved",
  "note": "the fragment is that of C41 (the claim for all documents fails with C41); C96_prose is exact, without re-wrapping"
 },
 "C97": {
  "status": "proved",
  "note": "a defect of the code: footnote definitions carry no anchor"
 },
 "C98": {
  "status": "proved",
  "note": ""
 },
 "C99": {
  "status": "partial",
  "note": "Refuted in general: tables are quadratic (short rows are filled up, C99_table_refuted), nested reference links exponential (C99_reference_refuted, k limited to 44 by the label limit of 1000). Proved: factor 6 without reference links and tables, quadratic without reference links, exponential in general. Assumes that entity values are no longer than their names and that upper-casing yields at most 3 characters."
 },
 "C100": {
  "status": "proved",
  "note": "C100_builders goes through all builders; texts, paragraphs, setext headings and hard line breaks have no characters of their own and are kept equal. Code blocks: no fence character, tab or four spaces in a row."
 },
 "C101": {
  "status": "proved",
  "note": "the condition on '&' is needed (C101_references): a character reference denotes a character the replacement does not see"
 },
 "C102": {
  "status": "proved",
  "note": "equal display widths are needed (C102_width_matters); the HTML anchor prefix is respelled with the document"
 },
 "C103": {
  "status": "proved",
  "note": "labels of references and definitions must not contain blanks (firm): without that C103_wrapped_label_refuted. The comparison identifies line breaks with spaces everywhere in the output; code and HTML blocks are equal in the documents compared (C41)"
 },
 "C104": {
  "status": "proved",
  "note": "one_to_one is needed (C104_merged_refuted); for LaTeX unresolved references are shown with their labels, hence `defined`"
 },
 "C105": {
  "status": "proved",
  "note": "End-to-end: layout -> parse -> HTML/LaTeX. Labels must not contain blanks because of C103_wrapped_label_refuted; HTML blocks must be well-formed because they are copied verbatim."
 },
 "C106": {
  "status": "proved",
  "note": "The bound is exact (C106_bound_reached)."
 },
 "C107": {
  "status": "proved",
  "note": "Refuted part: linear with definitions (C107_html_refuted, C107_latex_refuted). The source-level bounds need reference links switched off, because documents can otherwise be exponentially large (C99)."
 }
}