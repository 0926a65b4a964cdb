{"id": "C01", "title": "Attaching and stripping user data is lossless", "statement": "For every Document d and data value v, d.with_data(v).strip_data() == d (and likewise for blocks and inlines); to_generic/from_generic are mutually inverse on unit data.", "quantifier": "all documents, all user-data types and values", "why_tests_cant": "The AST is an unbounded recursive type; a test fixes a handful of trees.", "anchors": ["src/ast/convert.rs: WithData, StripData, to_generic, from_generic"]}
{"id": "C02", "title": "map_user_data changes only the user data", "statement": "map_user_data(d, f) has exactly the same shape and content as d: stripping the result equals stripping d; mapping the identity gives d back; mapping g after f equals mapping g\u2218f.", "quantifier": "all generic documents, all pure closures", "why_tests_cant": "The AST is an unbounded recursive type; a test fixes a handful of trees. Closures range over all functions.", "anchors": ["src/ast/map_data_visitor.rs: MapDataVisitor, map_user_data"]}
{"id": "C03", "title": "map_user_data calls the closure exactly once per node, in a fixed order", "statement": "With a stateful closure, map_user_data calls it once for every node, in post-order (children left to right, then the node itself; the document last), threading state through, and stores each result on the node whose datum was passed.", "quantifier": "all generic documents, all stateful closures and start states", "why_tests_cant": "The order is a property of every tree and every closure state history.", "anchors": ["src/ast/map_data_visitor.rs: visit_document, visit_block, visit_inline, visit_list, visit_table"]}
{"id": "C04", "title": "Element IDs are unique and sequential", "statement": "add_ids_to_document / add_ids_from(start) assign to the n nodes of the document exactly the ids start, start+1, ..., start+n-1 (each once), leave the content unchanged, and fail (u64 overflow) exactly when start+n exceeds u64::MAX.", "quantifier": "all documents, all u64 start values", "why_tests_cant": "The AST is an unbounded recursive type; a test fixes a handful of trees. The overflow boundary cannot be reached by allocation in a test.", "anchors": ["src/ast_specialized/utilities.rs: add_ids_to_document, add_ids_from", "src/ast_specialized/element_id.rs: IdGenerator::generate"]}
{"id": "C05", "title": "find_all returns every matching node, once, in document order", "statement": "find_all_inlines(p) / find_all_blocks(p) return exactly the nodes satisfying p, in pre-order document order, with multiplicity, nothing else.", "quantifier": "all documents and all predicates", "why_tests_cant": "The AST is an unbounded recursive type; a test fixes a handful of trees.", "anchors": ["src/ast_transform/query.rs: collect_inlines_from_block, collect_inlines_from_inline, collect_blocks_from_block"]}
{"id": "C06", "title": "find_first / any / count agree with find_all", "statement": "find_first_*(p) is the first element of find_all_*(p) (None iff empty), count_*(p) is its length, any_*(p) is true iff it is non-empty.", "quantifier": "all documents and all predicates", "why_tests_cant": "Separate hand-written recursions must agree on every tree.", "anchors": ["src/ast_transform/query.rs: find_first_inline_in_block, find_first_inline_in_inline, find_first_block_in_block, count_inlines, any_inline"]}
{"id": "C07", "title": "Typed finders return exactly the nodes of their kind", "statement": "find_all_links/images/headings/autolinks/text/code_spans/code_blocks/tables/lists return the payloads of all nodes of that kind in document order.", "quantifier": "all documents", "why_tests_cant": "The AST is an unbounded recursive type; a test fixes a handful of trees.", "anchors": ["src/ast_transform/query.rs: Query::find_all_links .. find_all_lists"]}
{"id": "C08", "title": "Default visitor traversal reaches every node once, in document order", "statement": "A visitor whose hooks record the node and then continue with the default walk records every block, inline, list item, table row, cell, heading, link, image, code block, text, footnote and alert exactly once in pre-order.", "quantifier": "all documents, all accumulator states", "why_tests_cant": "The AST is an unbounded recursive type; a test fixes a handful of trees.", "anchors": ["src/ast_transform/visitor.rs: Visitor::walk_block, walk_inline and the other walk_* defaults"]}
{"id": "C09", "title": "Visitor and Query see the same nodes", "statement": "Collecting matching inlines (blocks) with a Visitor yields the same sequence as find_all_inlines (find_all_blocks) with the same predicate.", "quantifier": "all documents and predicates", "why_tests_cant": "Two independent traversals must agree on every tree.", "anchors": ["src/ast_transform/visitor.rs", "src/ast_transform/query.rs"]}
{"id": "C10", "title": "The default transformer is the identity", "statement": "Transforming a document with a Transformer that overrides nothing returns an equal document.", "quantifier": "all documents", "why_tests_cant": "The AST is an unbounded recursive type; a test fixes a handful of trees.", "anchors": ["src/ast_transform/transformer.rs: Transformer::walk_transform_*"]}
{"id": "C11", "title": "transform_text rewrites every text node and nothing else", "statement": "d.transform_text(f): the list of text nodes of the result is f mapped over the list of text nodes of d, and apart from text contents the two documents are identical.", "quantifier": "all documents, all functions f", "why_tests_cant": "The AST is an unbounded recursive type; a test fixes a handful of trees.", "anchors": ["src/ast_transform/convenience.rs: TextTransformer"]}
{"id": "C12", "title": "transform_image_urls / link_urls / autolink_urls rewrite exactly their URLs", "statement": "Each rewrites every URL of its kind (also inside nested formatting and links) by f exactly once and leaves everything else identical.", "quantifier": "all documents, all functions f", "why_tests_cant": "The AST is an unbounded recursive type; a test fixes a handful of trees.", "anchors": ["src/ast_transform/convenience.rs: ImageUrlTransformer, LinkUrlTransformer, AutolinkTransformer"]}
{"id": "C13", "title": "transform_code / transform_html rewrite exactly their strings", "statement": "transform_code rewrites code spans only (not code blocks); transform_html rewrites inline Html and HtmlBlock only.", "quantifier": "all documents, all functions f", "why_tests_cant": "The AST is an unbounded recursive type; a test fixes a handful of trees.", "anchors": ["src/ast_transform/convenience.rs: CodeTransformer, HtmlTransformer"]}
{"id": "C14", "title": "Convenience transforms satisfy identity and fusion laws", "statement": "transform_X(id) is the identity and transform_X(g) after transform_X(f) equals transform_X(g\u2218f); transforms of different kinds commute.", "quantifier": "all documents, all functions", "why_tests_cant": "The AST is an unbounded recursive type; a test fixes a handful of trees.", "anchors": ["src/ast_transform/convenience.rs: Transform for Document"]}
{"id": "C15", "title": "remove_empty_text replaces exactly the blank text nodes", "statement": "After remove_empty_text no text node is whitespace-only, every other node is unchanged, and a second application changes nothing.", "quantifier": "all documents", "why_tests_cant": "The AST is an unbounded recursive type; a test fixes a handful of trees.", "anchors": ["src/ast_transform/convenience.rs: EmptyTextRemover"]}
{"id": "C16", "title": "normalize_whitespace yields canonical text", "statement": "After normalize_whitespace every text node has no leading/trailing whitespace and no whitespace other than single spaces between words, its word sequence is unchanged, and a second application changes nothing.", "quantifier": "all documents, all strings", "why_tests_cant": "Quantifies over all strings and trees.", "anchors": ["src/ast_transform/convenience.rs: normalize_whitespace"]}
{"id": "C17", "title": "remove_empty_paragraphs / filter_blocks filter exactly the top level", "statement": "They keep exactly the top-level blocks satisfying the criterion, in order, unchanged; nested blocks are not touched.", "quantifier": "all documents and predicates", "why_tests_cant": "The AST is an unbounded recursive type; a test fixes a handful of trees.", "anchors": ["src/ast_transform/convenience.rs: FilterTransform for Document"]}
{"id": "C18", "title": "Pipelines apply their steps in order", "statement": "TransformPipeline::apply(d) equals applying the steps left to right; when(false,..) adds nothing, when(true,b) equals inlining b's steps; when_doc applies the sub-pipeline iff the predicate holds of the document at that point; CompositeTransformer is sequential composition.", "quantifier": "all pipelines, documents, predicates", "why_tests_cant": "Pipelines are arbitrary-length histories.", "anchors": ["src/ast_transform/pipeline.rs: TransformPipeline", "src/ast_transform/transformer.rs: CompositeTransformer"]}
{"id": "C19", "title": "Expansion with default hooks is the singleton identity", "statement": "d.expand_with(t) with a transformer overriding nothing returns exactly [d].", "quantifier": "all documents (simple and generic)", "why_tests_cant": "The AST is an unbounded recursive type; a test fixes a handful of trees.", "anchors": ["src/ast_transform/transformer.rs: walk_expand_*", "src/ast_transform/generic_transformer.rs: walk_expand_*"]}
{"id": "C20", "title": "Expansion is local flat-mapping", "statement": "If an inline is expanded to several inlines, the parent's child list is the in-order concatenation of the expansions; siblings and ancestors are otherwise unchanged.", "quantifier": "all documents, all expansion functions", "why_tests_cant": "The AST is an unbounded recursive type; a test fixes a handful of trees.", "anchors": ["src/ast_transform/transformer.rs: walk_expand_block, walk_expand_inline"]}
{"id": "C21", "title": "The default generic transformer preserves structure and user data", "statement": "Transforming Document<T> with a GenericTransformer overriding nothing returns an equal document, including all user data.", "quantifier": "all generic documents and user-data types", "why_tests_cant": "The AST is an unbounded recursive type; a test fixes a handful of trees.", "anchors": ["src/ast_transform/generic_transformer.rs: walk_transform_*"]}
{"id": "C22", "title": "HTML escaping is safe and lossless", "statement": "escape(s) contains none of < > \" ' and every & in it starts one of the five entities; decoding the entities gives s back, so escape is injective.", "quantifier": "all strings", "why_tests_cant": "Quantifies over all strings.", "anchors": ["src/html_printer/util.rs: escape"]}
{"id": "C23", "title": "render_html produces well-formed, balanced markup", "statement": "For a document without raw HTML (and with alert labels free of markup characters), the output is a sequence of properly nested elements with quoted attributes, and text free of < and >.", "quantifier": "all such documents, all configs", "why_tests_cant": "The AST is an unbounded recursive type; a test fixes a handful of trees.", "anchors": ["src/html_printer/util.rs: tag", "src/html_printer/block.rs", "src/html_printer/inline.rs", "src/html_printer/github_alert.rs"]}
{"id": "C24", "title": "User text cannot inject markup", "statement": "The tag structure of the HTML output is determined by the document's structure alone: replacing texts, code, URLs, titles and alt texts by any other strings never changes the sequence of tags. (The documentation claims this for all user content. That is false for one string, the label of a custom alert, which is put out unescaped: C24_custom_label_refuted. Raw HTML is put out as it is, by design.)", "quantifier": "all documents without raw HTML", "why_tests_cant": "Security claim over all strings in all positions.", "anchors": ["src/html_printer/mod.rs: render_html (Security)", "src/html_printer/github_alert.rs: html_title"]}
{"id": "C25", "title": "Attribute values carry the AST value, escaped twice", "statement": "The href/src/alt/title attribute of a rendered link or image holds the destination/alt/title stored in the AST: HTML-decoding the attribute, and decoding the result once more, gives that value; one decoding suffices if the value has none of & < > \" '. (The claim that one decoding always suffices is false: C25_double_escape_refuted.)", "quantifier": "all strings", "why_tests_cant": "Quantifies over all strings.", "anchors": ["src/html_printer/util.rs: tag, escape", "src/html_printer/inline.rs"]}
{"id": "C26", "title": "HTML output does not depend on the configured width", "statement": "render_html(d, width w1) == render_html(d, width w2).", "quantifier": "all documents, all widths", "why_tests_cant": "Needs the layout algorithm for all trees and widths.", "anchors": ["src/html_printer/mod.rs: render_html", "src/html_printer/config.rs: with_width"]}
{"id": "C27", "title": "HTML footnote numbers are 1..n in order of first reference", "statement": "The footnote index assigns to the indexed labels the numbers 1..n without gaps or duplicates, in order of first indexed reference in document order; a repeated reference gets the same number.", "quantifier": "all documents", "why_tests_cant": "The AST is an unbounded recursive type; a test fixes a handful of trees.", "anchors": ["src/html_printer/index.rs: get_indicies, add_footnote"]}
{"id": "C28", "title": "Which footnote references are numbered", "statement": "A footnote reference is rendered as a numbered link exactly if some reference with its label stands directly in the content of a block, that is, not inside emphasis, strong, strikethrough or a link. (The claim that every footnote reference is numbered is false: C28_every_reference_refuted.)", "quantifier": "all documents", "why_tests_cant": "The AST is an unbounded recursive type; a test fixes a handful of trees.", "anchors": ["src/html_printer/index.rs: get_inline_indicies", "src/html_printer/inline.rs: FootnoteReference"]}
{"id": "C29", "title": "Reference links resolve to the last matching definition", "statement": "A reference link is rendered as <a> with the destination and title of the last definition of the document whose label equals the reference's label, and as nothing exactly if there is no such definition. (The claim that the text of an unresolved reference is still output is false: C29_unresolved_text_refuted.)", "quantifier": "all documents", "why_tests_cant": "The AST is an unbounded recursive type; a test fixes a handful of trees.", "anchors": ["src/html_printer/index.rs: get_block_indicies (Definition)", "src/html_printer/inline.rs: LinkReference"]}
{"id": "C30", "title": "When render_html panics", "statement": "render_html returns a string for every document and configuration unless the document displays a table without rows, and panics for each of those. (The claim that it never panics is false: C30_never_panics_refuted.)", "quantifier": "all documents, all configs", "why_tests_cant": "A panic needs a specific shape anywhere in an unbounded tree.", "anchors": ["src/html_printer/block.rs: Table::to_doc (rows.first().unwrap())"]}
{"id": "C31", "title": "Visible text reaches the HTML output", "statement": "For documents without reference links and footnotes, the concatenation of all text/code contents in document order equals the entity-decoded text content of the HTML.", "quantifier": "all such documents", "why_tests_cant": "The AST is an unbounded recursive type; a test fixes a handful of trees.", "anchors": ["src/html_printer/inline.rs", "src/html_printer/block.rs"]}
{"id": "C32", "title": "LaTeX escaping is safe and lossless", "statement": "escape_latex(s) contains no unescaped LaTeX special character, has balanced braces, and is injective (there is a decoder).", "quantifier": "all strings", "why_tests_cant": "Quantifies over all strings.", "anchors": ["src/latex_printer/util.rs: escape_latex"]}
{"id": "C33", "title": "render_latex output has balanced groups and environments", "statement": "For documents whose code does not contain the end of its own environment, whose code languages and custom alert labels are plain, and whose footnote references are defined, every { is matched and every \\begin{e} has its \\end{e}, properly nested. (The conditions are needed: C33_undefined_footnote_refuted, C33_code_breaks_out_refuted.)", "quantifier": "all such documents and configs", "why_tests_cant": "The AST is an unbounded recursive type; a test fixes a handful of trees.", "anchors": ["src/latex_printer/util.rs: command, environment", "src/latex_printer/block.rs", "src/latex_printer/table.rs"]}
{"id": "C34", "title": "LaTeX footnote numbers come from definitions", "statement": "The k-th footnote definition met in document order (through lists, quotes and alerts) gets number k; distinct labels get distinct numbers.", "quantifier": "all documents", "why_tests_cant": "The AST is an unbounded recursive type; a test fixes a handful of trees.", "anchors": ["src/latex_printer/mod.rs: get_indices"]}
{"id": "C35", "title": "Width changes only whitespace in LaTeX output", "statement": "Rendering with two different widths gives the same characters once spaces and newlines are removed.", "quantifier": "all documents, all widths", "why_tests_cant": "Needs all layouts.", "anchors": ["src/latex_printer/mod.rs: render_latex", "src/latex_printer/inline.rs"]}
{"id": "C36", "title": "Rendered Markdown tables are aligned", "statement": "For a rectangular table every output row, including the delimiter row, has the same number of characters, and cell k occupies the same columns in every row.", "quantifier": "all rectangular tables with single-line cells", "why_tests_cant": "Quantifies over all cell contents and sizes.", "anchors": ["src/printer/table.rs: columns_width, cell_to_doc, alignment_to_doc"]}
{"id": "C37", "title": "When render_markdown panics", "statement": "render_markdown panics exactly if, at the column where it is laid out, a quote has less than two columns left, a table has a cell wider than its column, an ordered list ends beyond u64 or an empty one starts at 0 (SpecMd.document_panics); otherwise it returns a string. (The claim that it never panics is false: C37_never_panics_refuted.)", "quantifier": "all documents, all configs", "why_tests_cant": "Arithmetic underflow/overflow at boundary values.", "anchors": ["src/printer/table.rs: cell_to_doc", "src/printer/list.rs", "src/printer/blockquote.rs"]}
{"id": "C38", "title": "Line wrapping does not create the documented block syntax", "statement": "In a rendered text paragraph, a line created by wrapping never starts with a word of the documented list of unsafe words (bullets, '#' runs, numbers with a dot, rules, fences, '>', '|', indentation), and the detector recognises exactly that list. (The claim for everything the parser takes for block syntax is false: C38_wrap_refuted.)", "quantifier": "all texts, all widths", "why_tests_cant": "Quantifies over all texts and all layouts.", "anchors": ["src/printer/inline.rs: safe_text_layout", "src/printer/markdown_syntax_detector.rs: is_markdown_syntax_at_line_start"]}
{"id": "C39", "title": "Width changes only whitespace in Markdown output", "statement": "Rendering at two widths gives the same characters up to spaces and newlines, for every document without block quotes and alerts.", "quantifier": "all such documents, all widths", "why_tests_cant": "Needs all layouts.", "anchors": ["src/printer/mod.rs: render_markdown"]}
{"id": "C40", "title": "Ordered lists are numbered consecutively from the start value", "statement": "The i-th item of an ordered list is printed with number start+i, bullets with the list's marker, tasks with [X]/[ ].", "quantifier": "all lists, all start values", "why_tests_cant": "The AST is an unbounded recursive type; a test fixes a handful of trees.", "anchors": ["src/printer/list.rs"]}
{"id": "C41", "title": "Round trip on a fragment with quotes, lists, code, headings and rich inlines", "statement": "Printing then parsing: parse_markdown(render_markdown(d)) is d up to re-wrapping (a line break inside a text counts as a space), the result is again in the fragment, and printing it prints the same text. Proved for documents made of paragraphs and setext headings, ATX headings, thematic breaks, fenced and indented code, nested block quotes, GitHub alerts, tables, link definitions and nested bullet, ordered and task lists (with the side conditions of SpecRound.v), whose contents are texts, hard breaks, code spans, emphasis, strong, strong emphasis, strikethrough, links, images, autolinks, footnote references and link references, nested, at every width; the full claim, for every parsed document, is refuted (texts are printed unescaped).", "quantifier": "all documents of the fragment, all widths and printer configurations, all entity/punctuation tables", "why_tests_cant": "Quantifies over all documents and widths.", "anchors": ["src/printer/mod.rs: Round-trip Guarantee", "src/parser/mod.rs: parse_markdown"]}
{"id": "C42", "title": "Parsing terminates and succeeds on every input", "statement": "parse_markdown with the default configuration returns Ok for every string; more generally for every configuration without custom parsers in which text and paragraphs are not Ignored.", "quantifier": "all strings, all such configurations", "why_tests_cant": "All inputs; termination.", "anchors": ["src/parser/mod.rs: parse_markdown", "src/parser/blocks/mod.rs: block", "src/parser/inline/mod.rs: inline"]}
{"id": "C43", "title": "No inline content is silently dropped", "statement": "The inline parser consumes its whole input: the remainder that the code discards after inline_many0/inline_many1 is always empty.", "quantifier": "all strings, all configurations that do not Ignore text", "why_tests_cant": "All inputs.", "anchors": ["src/parser/inline/mod.rs: inline_many0, inline_many1", "src/parser/blocks/paragraph.rs", "src/parser/blocks/heading.rs"]}
{"id": "C44", "title": "No nested block content is silently dropped", "statement": "The remainder discarded after parsing the inside of a block quote, list item, footnote or alert is always blank.", "quantifier": "all strings, same configurations", "why_tests_cant": "All inputs.", "anchors": ["src/parser/blocks/blockquote.rs", "src/parser/blocks/list.rs: list_item", "src/parser/blocks/footnote_definition.rs", "src/parser/blocks/github_alert.rs"]}
{"id": "C45", "title": "Parsed headings have level 1 to 6", "statement": "Every ATX heading anywhere in a parsed document has level between 1 and 6.", "quantifier": "all strings, all configurations without rewriting hooks", "why_tests_cant": "All inputs.", "anchors": ["src/parser/blocks/heading.rs: heading_v1"]}
{"id": "C46", "title": "Parsed tables are rectangular", "statement": "Every table anywhere in a parsed document has at least one column, alignments.len() == number of header cells, and every row has exactly that many cells.", "quantifier": "all strings, all configurations without rewriting hooks", "why_tests_cant": "All inputs.", "anchors": ["src/parser/blocks/table.rs: table, parse_table_data_rows", "src/ast/mod.rs: Table"]}
{"id": "C47", "title": "Adjacent text nodes are merged", "statement": "No inline list anywhere in a parsed document contains two consecutive Text nodes.", "quantifier": "all strings, all configurations without rewriting hooks", "why_tests_cant": "All inputs.", "anchors": ["src/parser/inline/mod.rs: merge_consecutive_text_elements"]}
{"id": "C48", "title": "Merging text preserves content", "statement": "merge_consecutive_text_elements keeps all non-text elements in order and the concatenated text between them, and is idempotent.", "quantifier": "all inline lists", "why_tests_cant": "All lists.", "anchors": ["src/parser/inline/mod.rs: merge_consecutive_text_elements"]}
{"id": "C49", "title": "Parsed lists are non-empty and bounded", "statement": "Every list in a parsed document has at least one item; an ordered list's start fits u64 and equals the number written.", "quantifier": "all strings", "why_tests_cant": "All inputs.", "anchors": ["src/parser/blocks/list.rs: list, list_marker_ordered"]}
{"id": "C50", "title": "Ignore removes an element kind", "statement": "With ElementBehavior::Ignore or Skip for an element kind other than text and paragraph, no node of that kind occurs anywhere in the parsed document (text and paragraph: see C52).", "quantifier": "all strings, all configurations without rewriting hooks", "why_tests_cant": "All inputs and 24 switches.", "anchors": ["src/parser/util.rs: conditional, conditional_block_vec", "src/parser/blocks/mod.rs", "src/parser/inline/mod.rs"]}
{"id": "C51", "title": "Skip removes an element kind but keeps consuming it", "statement": "With ElementBehavior::Skip for an element, no node of that kind occurs in the document; Empty stands in its place and the rest of the document is parsed as with Parse.", "quantifier": "all strings, all configurations without rewriting hooks", "why_tests_cant": "All inputs.", "anchors": ["src/parser/util.rs: conditional"]}
{"id": "C52", "title": "Which behaviour governs paragraphs", "statement": "A paragraph is treated by the behaviour set for setext headings unless that is Ignore, in which case by the behaviour set for paragraphs. (The documented claims that block_paragraph_behavior controls ordinary paragraphs, that block_heading_v2_behavior only affects setext headings and that inline_text_behavior controls all texts are false: C52_*_refuted.)", "quantifier": "all strings and configurations", "why_tests_cant": "Interaction of switches with alternatives order.", "anchors": ["src/parser/blocks/heading.rs: heading_v2_or_paragraph", "src/parser/blocks/mod.rs: block"]}
{"id": "C53", "title": "Map(identity) and FlatMap(singleton) equal Parse", "statement": "Replacing Parse by Map(|x| x) or FlatMap(|x| vec![x]) for any element never changes the parse result.", "quantifier": "all strings, all configurations", "why_tests_cant": "All inputs.", "anchors": ["src/parser/util.rs: conditional"]}
{"id": "C54", "title": "GitHub alert markers", "statement": "A marker is an alert exactly if its trimmed upper case is [!NAME] where NAME is one of the five standard names, or an identifier that does not begin with a standard name, which makes a custom alert carrying the upper-cased name; so the standard names are recognised in any case. (The claim that any other identifier is a custom alert is false for [!NOTES]: C54_custom_refuted.)", "quantifier": "all marker strings", "why_tests_cant": "All strings.", "anchors": ["src/parser/blocks/github_alert.rs: parse_alert_marker, parse_custom_alert_name"]}
{"id": "C55", "title": "Every parsed document can be rendered", "statement": "For every string s, rendering parse_markdown(s) with render_html never panics; with render_markdown it never panics unless an ordered-list number overflows u64 or the width is too small for quotes.", "quantifier": "all strings", "why_tests_cant": "Composition of parser and printers over all inputs.", "anchors": ["src/parser/mod.rs", "src/html_printer/mod.rs", "src/printer/mod.rs"]}
{"id": "C56", "title": "Code spans and fenced blocks keep their content literally", "statement": "The content of a parsed code span is the text between the tick runs with line endings as spaces and one blank stripped on both sides; the literal of a fenced block is its lines joined by \\n; printing then parsing a fenced block gives it back.", "quantifier": "all contents without the closing fence", "why_tests_cant": "All strings.", "anchors": ["src/parser/inline/code_span.rs", "src/parser/blocks/code_block.rs", "src/printer/block.rs"]}
{"id": "C57", "title": "Numeric character references decode exactly", "statement": "&#N; and &#xH; decode to the scalar value N / H iff it is a valid Unicode scalar value, otherwise the text is left undecoded.", "quantifier": "all digit strings", "why_tests_cant": "All digit strings including overflow.", "anchors": ["src/parser/inline/html_entity.rs: html_entity_numeric"]}
{"id": "C58", "title": "Link labels are bounded and non-blank", "statement": "A link/reference label is accepted only if its unescaped text has fewer than 1000 characters and a character other than space/newline.", "quantifier": "all strings", "why_tests_cant": "All inputs; boundary at 1000.", "anchors": ["src/parser/link_util.rs: link_label_inner"]}
{"id": "C59", "title": "HTML output is the document's HTML view", "statement": "Lexing the output of render_html gives exactly the tags and text prescribed for the document: each AST node becomes its HTML element (paragraph <p>, heading level n <hn>, list <ol start>/<ul>, table thead/tbody with per-column alignment class, numbered footnotes, resolved reference links, alerts), in document order, with nothing else.", "quantifier": "every document whose raw HTML pieces are themselves well-formed and whose tables have rows, every config and width", "why_tests_cant": "The claim is about every document and every character; tests compare a few output strings.", "anchors": ["src/html_printer/block.rs", "src/html_printer/inline.rs", "src/html_printer/github_alert.rs", "src/html_printer/mod.rs:render_html"]}
{"id": "C60", "title": "LaTeX output is the document's LaTeX view", "statement": "The output of render_latex is, character for character, the LaTeX prescribed for the document (command per inline kind, sectioning command per heading level, environments for quotes, lists, tables in the three styles, code in the three styles, numbered footnotes, resolved reference links, blocks separated by an empty line); the only freedom is that each white-space run of a text becomes either one space or one newline.", "quantifier": "every document, every config and width", "why_tests_cant": "The claim is about every document and every character; tests compare a few output strings.", "anchors": ["src/latex_printer/block.rs", "src/latex_printer/inline.rs", "src/latex_printer/table.rs", "src/latex_printer/mod.rs: render_latex"]}
{"id": "C61", "title": "Hooks act as a bottom-up map", "statement": "Parsing with Map/FlatMap/Skip behaviours equals parsing without them and then mapping the behaviours over the tree bottom-up, re-joining adjacent texts.", "quantifier": "all inputs and all configurations whose hooks can be read off the tree", "why_tests_cant": "hooks are arbitrary functions and inputs arbitrary strings; a test fixes one hook and one text", "anchors": ["src/parser/util.rs:conditional_block,conditional_inline", "src/parser/config.rs:ElementBehavior"]}
{"id": "C62", "title": "The parser never produces inline HTML", "statement": "No Inline::Html node occurs in a parsed document (unless user code makes one).", "quantifier": "all inputs and configurations without user code", "why_tests_cant": "must hold for every input string", "anchors": ["src/parser/inline/mod.rs:inline"]}
{"id": "C63", "title": "GitHub alert hooks are never run", "statement": "Setting a Map or FlatMap behaviour for GitHub alerts has exactly the effect of Parse, for every source: the hook is not run. (The documented claim that it is applied to every alert is false: C63_alert_hook_refuted.)", "quantifier": "all inputs and hooks", "why_tests_cant": "a test fixes one hook", "anchors": ["src/parser/util.rs:conditional_block_vec", "src/parser/blocks/github_alert.rs"]}
{"id": "C64", "title": "Backslash escapes work anywhere in a text", "statement": "A backslash before an ASCII punctuation character yields that character literally, wherever in a text it stands.", "quantifier": "all texts and positions", "why_tests_cant": "positions and surrounding texts are unbounded", "anchors": ["src/parser/inline/text.rs:text,not_a_text,escaped_char"]}
{"id": "C65", "title": "Block syntax works inside block quotes", "statement": "A line that is a heading on its own is a heading when prefixed with '> '.", "quantifier": "all headings and quotes", "why_tests_cant": "all lines", "anchors": ["src/parser/blocks/blockquote.rs", "src/parser/blocks/heading.rs:heading_v1"]}
{"id": "C66", "title": "Markdown output is the document's Markdown view", "statement": "The string returned by render_markdown is, character by character, the document's Markdown notation (headings with #, markers, indentation, fences, links, aligned tables, quotes prefixed by '> ', blocks separated by empty lines), the only freedom being that a blank inside a paragraph text may be printed as a line break to the current indentation.", "quantifier": "all documents, all configurations", "why_tests_cant": "The printer goes through a layout engine; that no combination of nesting, width and configuration ever loses, adds or reorders a character can only be shown for all documents at once.", "anchors": ["src/printer/mod.rs: render_markdown", "src/printer/block.rs", "src/printer/inline.rs", "src/printer/list.rs", "src/printer/table.rs", "src/printer/blockquote.rs", "src/printer/github_alert.rs"]}
{"id": "C67", "title": "Line breaks inside texts are spaces for the Markdown printer", "statement": "render_markdown prints a document and the same document with the line breaks inside its texts replaced by spaces identically, provided each link reference has a label and a text that are equal or that differ in more than such blanks (they are compared literally, and the refutation shows the proviso is needed).", "quantifier": "all documents and configurations", "why_tests_cant": "All documents, all nestings and widths.", "anchors": ["src/printer/inline.rs: Text", "src/printer/mod.rs: render_markdown"]}
{"id": "C68", "title": "Text is filled to the configured width", "statement": "render_markdown breaks lines greedily and nowhere else: where a line may be broken (a blank of flowing text not before a word that would begin a block), it writes a blank if the words up to the next such place or line end still fit in the width, and a line break with the indentation of the construct if not. The content of a block quote keeps to the configured width less the quote's column and the two columns of '> ' (so a quote inside a quote exceeds the configured width by the outer prefix), that of an alert to 80 columns.", "quantifier": "all documents, widths and width tables", "why_tests_cant": "All texts and all widths; the interplay of unsafe words and widths is unbounded.", "anchors": ["src/printer/config.rs: with_width", "src/printer/inline.rs: safe_text_layout", "src/printer/blockquote.rs"]}
{"id": "C69", "title": "The inline syntax", "statement": "The text of a paragraph, heading, cell or label is read by a fixed grammar: at each place the first applicable construct among autolink, inline link, footnote reference, reference link, hard line break, image, code span, SNAKE_case word, emphasis, strikethrough, the custom parser and plain text is taken, its content is read the same way, hooks configured for the construct are applied, and neighbouring texts are joined. Every text has exactly one reading.", "quantifier": "all texts, all configurations (switches, hooks, custom parsers, entity and punctuation tables)", "why_tests_cant": "All strings, with unbounded nesting and look-ahead.", "anchors": ["src/parser/inline/mod.rs: inline, inline_many0, inline_many1", "src/parser/inline/*.rs", "src/parser/link_util.rs"]}
{"id": "C70", "title": "The block syntax", "statement": "A document is read by a fixed grammar: after blank lines, the first applicable construct among code block, ATX heading, setext heading or paragraph, thematic break, GitHub alert, block quote, list, HTML block, footnote definition, link definition, table, the custom parser and a one-line paragraph is taken; the text of its inline parts is read by the inline grammar (C69) and the lines of quotes, alerts, list items and footnotes by the block grammar again; hooks and switches configured for the construct are applied to what was read. parse_markdown returns exactly the reading of this grammar, and every input has exactly one.", "quantifier": "all inputs, all configurations (switches, hooks, custom parsers, Unicode tables) with the text and paragraph parsers not skipped", "why_tests_cant": "All strings, with unbounded nesting, look-ahead and block length.", "anchors": ["src/parser/mod.rs: parse_markdown", "src/parser/blocks/mod.rs: block", "src/parser/blocks/*.rs"]}
{"id": "C71", "title": "An id generator hands out consecutive ids over any history of calls", "statement": "For every start value and every sequence of generate/peek/reset calls on an IdGenerator, each generate and each peek returns the start value (1 after a reset) plus the number of generate calls since the start or the last reset; peek changes no later result; n generate calls return start, start+1, ...; and a call panics exactly when it is generate and the id that is due is u64::MAX or more.", "quantifier": "all start values and all finite histories of generate, peek and reset calls", "why_tests_cant": "Histories of calls are unbounded and the overflow is at 2^64-1.", "anchors": ["src/ast_specialized/element_id.rs: IdGenerator::{new,starting_from,generate,peek,reset}"]}
{"id": "C72", "title": "One id visitor used for several documents never repeats an id", "statement": "Visiting any sequence of documents (carrying any user data) with one IdAssignmentVisitor keeps the content of each and gives all nodes of all of them the ids start, start+1, ... in visiting order, so no two nodes share an id, as long as they fit u64.", "quantifier": "all sequences of documents, all user data types, all start values", "why_tests_cant": "Ranges over all documents and all lengths of the sequence.", "anchors": ["src/ast_specialized/utilities.rs: IdAssignmentVisitor", "src/ast/map_data_visitor.rs"]}
{"id": "C73", "title": "Configuration builders are independent and the last call wins", "statement": "For the parser, Markdown, HTML and LaTeX configurations: after any sequence of builder calls every setting has the value given by the last call of its own method, or its previous value if it was never called; parser builder calls of different methods can be exchanged and an earlier call of the same method is irrelevant; no call takes back with_allow_no_space_in_headings.", "quantifier": "all sequences of builder calls with all arguments, all starting configurations", "why_tests_cant": "26 parser methods in any order and number: unboundedly many call sequences and arbitrary closures as arguments.", "anchors": ["src/parser/config.rs: MarkdownParserConfig::with_*", "src/printer/config.rs", "src/html_printer/config.rs", "src/latex_printer/config.rs"]}
{"id": "C74", "title": "Parsed documents are in normal form", "statement": "With the default configuration every node of a parsed document has its normal shape: paragraphs, headings, emphasis, links and link definitions have content, texts and code spans are not empty, quotes and lists have blocks/items, ordered lists start below 2^64, heading levels are 1..6, indented code is not blank, fence infos are non-empty single lines, HTML blocks begin with '<', tables are rectangular, labels are non-empty, custom alert names are identifiers that do not begin like a standard one; and a document is empty exactly if its source is blank.", "quantifier": "all inputs, all nodes at any depth, all entity/Unicode tables (entities with non-empty values)", "why_tests_cant": "Consumers (printers, transformers) rely on these invariants for every node of every possible document.", "anchors": ["src/parser/mod.rs: parse_markdown", "src/parser/blocks/*", "src/parser/inline/*"]}
{"id": "C75", "title": "Custom parsers are local", "statement": "Two configurations that differ in their custom parsers only, and whose custom parsers answer alike on every text written with the characters of the document (and line feeds), parse the document alike. So a custom syntax that needs a certain character leaves documents without it alone, and a parser that rejects everything changes nothing.", "quantifier": "all documents, all well-behaved custom block and inline parsers, all configurations", "why_tests_cant": "Ranges over arbitrary user functions and documents.", "anchors": ["src/parser/blocks/mod.rs: custom_parser", "src/parser/inline/mod.rs: custom_parser", "src/parser/config.rs: with_custom_block_parser, with_custom_inline_parser"]}
{"id": "C76", "title": "Custom parsers run before the built-in ones", "statement": "README: custom parsers 'are executed before the built-in ones and can be used to support additional syntax or override behavior'. What holds: they come before paragraphs and plain text only; no custom parser can override a heading or an autolink; a custom inline parser is asked at the beginning of a text and after an element, but never inside of a run of plain text.", "quantifier": "all well-behaved custom block and inline parsers, all texts", "why_tests_cant": "Ranges over arbitrary user functions and texts.", "anchors": ["README.md: Registering custom parsers", "src/parser/blocks/mod.rs: block", "src/parser/inline/mod.rs: inline", "src/parser/inline/text.rs: not_a_text"]}
{"id": "C77", "title": "The parser invents no text", "statement": "Without user code, and for sources without character references, every character of every string in the parsed document occurs in the source; only line feeds between lines and spaces in code spans are added.", "quantifier": "all inputs without '&', all strings of all nodes, all configurations without hooks and custom parsers", "why_tests_cant": "A statement about every string of every document.", "anchors": ["src/parser/blocks/*", "src/parser/inline/*"]}
{"id": "C78", "title": "Serialised documents are read back", "statement": "With feature ast-serde, the JSON value written for a document (or for any inline or block, or for a document with user data whose own values are read back, or for a document with identifiers) is read back as exactly that document, whatever the order in which the format keeps the fields of its objects; so different documents have different serialisations.", "quantifier": "all documents whose numbers are values of their Rust types, all user-data types with a faithful codec, all orders of object fields", "why_tests_cant": "A round trip over every tree of every shape, every field order and every user-data type.", "anchors": ["src/ast/mod.rs", "src/ast/generic.rs", "src/ast/github_alerts.rs", "src/ast_specialized/element_id.rs"]}
{"id": "C79", "title": "User data are optional in serialised documents", "statement": "With feature ast-serde, leaving the field user_data out of every object of the JSON of a document with user data gives a JSON that is read as the same document with the default value attached to every node.", "quantifier": "all documents, all user-data types, all field orders", "why_tests_cant": "Every one of the 25 node kinds must carry the default attribute, at every position of every tree.", "anchors": ["src/ast/generic.rs"]}
{"id": "C80", "title": "Windows line endings do not change the document", "statement": "Replacing every CR LF of a source by LF does not change the parsed document, and sources that differ only in the kind of their line endings are parsed alike.", "quantifier": "all sources without lone carriage returns (line endings may be mixed), all configurations without a custom block parser", "why_tests_cant": "Every construct splits lines with its own combinator; a statement about all inputs needs each of them to agree on both endings at every position.", "anchors": ["src/parser/util.rs", "src/parser/blocks/*"]}
{"id": "C81", "title": "Blank lines before a document do not matter", "statement": "Putting any number of blank lines (spaces and tabs followed by LF or CR LF) before a source does not change what parse_markdown returns: same document, or same failure.", "quantifier": "all sources, all runs of blank lines, all configurations whose custom parsers consume input when they succeed", "why_tests_cant": "The claim ranges over every source; each block parser skips leading blank lines itself and a single one that treats them differently breaks it.", "anchors": ["src/parser/blocks/mod.rs block", "src/parser/util.rs many_empty_lines0", "src/parser/mod.rs parse_markdown"]}
{"id": "C82", "title": "Line feeds at the end of a source do not matter", "statement": "Appending any number of line feeds to a source does not change the parsed document.", "quantifier": "all sources that do not end in a carriage return, in which no line begins with '<' in front of a letter, '/', '!' or '?' (if HTML blocks are on) and that do not end in a backslash (if link definitions are on); all configurations without a custom block parser that can read text and paragraphs", "why_tests_cant": "Each construct detects the end of its last line with its own combinator and alternatives are tried in order, so one construct that treats end of input and end of line differently changes the document for some source.", "anchors": ["src/parser/util.rs eof_or_eol, line_terminated", "src/parser/blocks/*.rs", "src/parser/mod.rs parse_markdown"]}
{"id": "C83", "title": "Stateful closures", "statement": "Closures of the parser configuration may keep state. If their answers do not depend on the state, parsing gives the same result as with the corresponding pure functions; whatever they answer, parsing with default switches still succeeds and reads the whole input; and the state changes only as calls of closures change it, so every invariant of the closures holds after the parse and without closures nothing changes.", "quantifier": "all configurations with arbitrary state-passing hooks and custom parsers, all initial states, all sources", "why_tests_cant": "The closures are called at many places, also in attempts that are given up, in an order that depends on the source; a test fixes the closures, the state and the source.", "anchors": ["src/parser/config.rs ElementBehavior", "src/parser/util.rs conditional", "src/parser/mod.rs parse_markdown"]}
{"id": "C84", "title": "A hook is called once per element", "statement": "The hook on a kind of element is called exactly once for each element of that kind in the document.", "quantifier": "all sources; a hook on every kind of element", "why_tests_cant": "The number of calls depends on the backtracking of the parser on the particular source; it grows with the nesting of the source.", "anchors": ["src/parser/util.rs conditional", "src/parser/link_util.rs link_label", "src/parser/inline/text.rs not_a_text", "src/parser/blocks/paragraph.rs is_paragraph_line_start"]}
{"id": "C85", "title": "Sources put one after the other", "statement": "Parsing a source, a blank line and another source gives the blocks of the first followed by the blocks of the second.", "quantifier": "all configurations without custom block parser, all pairs of sources, all lists of sources", "why_tests_cant": "Whether a block ends at the blank line depends on every block parser, on the order in which they are tried and on what both sources contain; a test fixes the two sources.", "anchors": ["src/parser/mod.rs parse_markdown", "src/parser/blocks/mod.rs block", "src/parser/blocks/code_block.rs", "src/parser/blocks/list.rs", "src/parser/blocks/html_block.rs", "src/parser/blocks/link_definition.rs", "src/parser/blocks/footnote_definition.rs"]}
{"id": "C86", "title": "Reading JSON accepts exactly the encodings of documents", "statement": "Deserialising a JSON value gives a document exactly when the value encodes it: each record as an object (fields in any order, each once, unknown fields ignored, absent options and default user data may be left out) or as a row in declaration order, each choice as its name or a one-entry object, numbers within their machine type. Everything else is an error, no value encodes two documents, and what was read is written and read again unchanged.", "quantifier": "all JSON values, all documents, all user data types with any reader and default", "why_tests_cant": "The set of accepted values is infinite and so is the set of values to reject; tests only read back what was written.", "anchors": ["src/ast/mod.rs derive(serde::Deserialize)", "src/ast/generic.rs serde(default)", "src/ast/github_alerts.rs"]}
{"id": "C87", "title": "Every overridden transformer method is called for every node of its kind", "statement": "transform_with calls each transform_* method of a Transformer or GenericTransformer exactly once for every node of its kind, in document order, with the node as it stood in the input, whatever the methods make of their nodes. Both traits and the visitor go through a document alike.", "quantifier": "all documents, blocks and inlines, with and without user data, all families of overriding methods that do their default work", "why_tests_cant": "Tests override one method on one document; the claim ranges over all thirteen methods, all nestings and all results the methods may return.", "anchors": ["src/ast_transform/transformer.rs walk_transform_*", "src/ast_transform/generic_transformer.rs walk_transform_*"]}
{"id": "C88", "title": "Overridden transformer methods rebuild the document bottom-up", "statement": "Methods that do their default work and then apply a function of the old and the rebuilt node give the document rebuilt bottom-up by these functions: parts before wholes, the specific method of a node before transform_block / transform_inline, all fields and all user data no function touches kept.", "quantifier": "all documents, with and without user data, all families of functions", "why_tests_cant": "Any field dropped or any child skipped for any combination of node kinds would violate it.", "anchors": ["src/ast_transform/transformer.rs walk_transform_*", "src/ast_transform/generic_transformer.rs walk_transform_*"]}
{"id": "C89", "title": "Overridden expansion methods replace every node of their kind", "statement": "expand_with puts, in the place of every node, the nodes the overridden expand_* method of its kind returns.", "quantifier": "all documents with and without user data, all overriding expansion methods", "why_tests_cant": "Which nodes are expanded depends on where they stand in the document.", "anchors": ["src/ast_transform/generic_transformer.rs walk_expand_block, walk_expand_inline, expand_*", "src/ast_transform/transformer.rs expand_*"]}
{"id": "C90", "title": "Without overridden expansion methods expand_with is transform_with", "statement": "If no expand_* or walk_expand_* method is overridden, expand_with returns exactly the one document transform_with returns.", "quantifier": "all documents with and without user data, all transformers, all states", "why_tests_cant": "It must hold for every choice of overridden transform_* methods and every document.", "anchors": ["src/ast_transform/transformer.rs walk_expand_document, walk_expand_block", "src/ast_transform/generic_transformer.rs walk_expand_document, walk_expand_block"]}
{"id": "C91", "title": "The Markdown of a document is the Markdown of its blocks put together", "statement": "Rendering two documents put together gives the Markdown of the first, the block separator (an empty line, or one line end before a list when empty_line_before_list is off), and the Markdown of the second, and fails exactly if one of them does; so a document renders to the renderings of its blocks one after another. The first part must not end in a list whose last item ends in an empty block or blank text (there the printer writes the indentation only at the end of the document). A quote (without nested quotes) is the Markdown of its blocks laid out two columns narrower, each line prefixed with '> '.", "quantifier": "all documents (with the stated condition on the last block of the first part), configurations and width tables", "why_tests_cant": "It must hold for every pair of documents: layout decisions look ahead over the pending document, so that a later block changes no earlier line cannot be tested.", "anchors": ["src/printer/mod.rs: render_markdown", "src/printer/block.rs", "src/printer/blockquote.rs", "src/printer/list.rs"]}
{"id": "C92", "title": "The parser loses no text", "statement": "For every source without '&', parsed without user code and without skipped elements, the letters of the source (ASCII letters, and all characters beyond ASCII but whitespace) are, in the same order, exactly the letters of what the document says: its texts, code, HTML, link destinations and titles, image descriptions, labels, info strings, alert names and checked task marks. No construct, well formed or not, drops, repeats or moves text; the only exception are the cells of a table row beyond the number of cells of the header.", "quantifier": "all sources without '&', all configurations whose elements are Parse or Ignore (texts and paragraphs not ignored)", "why_tests_cant": "It must hold for every source, in particular for every unclosed or overlapping construct, where the parser falls back from one rule to another.", "anchors": ["src/parser/mod.rs parse_markdown", "src/parser/blocks/*", "src/parser/inline/*", "src/parser/util.rs"]}
{"id": "C93", "title": "Untrusted Markdown renders to harmless HTML", "statement": "If HTML blocks are ignored or skipped and there is no user code, then every source parses and renders, at any width, to HTML in which tags are closed in the order they are opened and which holds only a fixed list of formatting elements with a fixed list of attributes: no script, no style, no event handler, no element or attribute written by the author of the source. (Destinations of links are not filtered: javascript: URLs stay.)", "quantifier": "all sources, all configurations without user code with HTML blocks off (texts and paragraphs not ignored), all HTML configurations", "why_tests_cant": "An attacker chooses the source; one input that gets a tag or attribute through is enough.", "anchors": ["src/parser/mod.rs parse_markdown", "src/html_printer/*", "src/html_printer/util.rs escape"]}
{"id": "C94", "title": "Untrusted Markdown cannot put commands into the LaTeX", "statement": "If code blocks are ignored or skipped and there is no user code, then for every source the commands (as TeX reads them: backslash and name, or backslash and one character, including TeX's ^^ notation) in the rendered LaTeX, at any width and in any table style, are all from a fixed list of formatting commands of the printer: no \\input, \\write, \\def or any other command written by the author of the source.", "quantifier": "all sources, all configurations without user code with code blocks off (texts and paragraphs not ignored), all LaTeX configurations", "why_tests_cant": "An attacker chooses the source; one input that gets a command through is enough.", "anchors": ["src/parser/mod.rs parse_markdown", "src/latex_printer/*", "src/latex_printer/util.rs escape_latex"]}
{"id": "C95", "title": "The HTML and the LaTeX of a document are those of its parts put together", "statement": "If of two lists of blocks one neither contains references (footnotes, link references) nor definitions, then the HTML of a document of both is the HTML of the first followed by that of the second, and its LaTeX is the LaTeX of the first, an empty line, and that of the second, at any width: no block changes how another one is escaped, numbered, resolved or filled into lines. HTML rendering panics exactly if it panics for one part.", "quantifier": "all pairs of block lists one of which is standalone, all configurations and widths", "why_tests_cant": "It must hold for every pair of documents of any size; layout decisions look ahead over what follows.", "anchors": ["src/html_printer/mod.rs render_html", "src/html_printer/index.rs", "src/latex_printer/mod.rs render_latex", "src/latex_printer/block.rs"]}
{"id": "C96", "title": "Where the lines of a source are broken does not matter", "statement": "However the lines of a document are broken (at any choice of the places where a line may be broken, by hand or by a printer), parsing gives the document back up to line breaks in texts, for all documents of the C41 fragment; printing the result gives the text of the document itself, whatever the layout was and whatever options an earlier formatting used: formatting with one set of options and then with another is formatting with the other. Paragraphs of prose are read exactly as they are written, line breaks included.", "quantifier": "all documents of the C41 fragment, all layouts of their lines, all printer options, widths, entity/punctuation tables", "why_tests_cant": "A document of n words has 2^n layouts; the claim is about all layouts of all documents.", "anchors": ["src/parser/mod.rs parse_markdown", "src/parser/blocks/paragraph.rs", "src/printer/mod.rs render_markdown", "src/printer/config.rs"]}
{"id": "C97", "title": "Footnote links in HTML have no target", "statement": "The HTML of a document without raw HTML contains no element with an id or name attribute, at any width and with any anchor prefix. So the link \"#prefix n\" that every numbered footnote reference is rendered as leads nowhere. (The claim that the link leads to the footnote is false: C97_footnote_target_refuted.)", "quantifier": "all documents without raw HTML, all configurations and widths, all anchors", "why_tests_cant": "The AST is an unbounded recursive type; that no document at all yields an anchor is a universal claim.", "anchors": ["src/html_printer/block.rs FootnoteDefinition::to_doc", "src/html_printer/inline.rs Inline::FootnoteReference", "src/html_printer/config.rs with_anchor_prefix"]}
{"id": "C98", "title": "Where with_data puts the datum", "statement": "with_data gives the datum to the node it is called on and T::default() to every node inside of it, for documents, blocks and inlines; with_default_data gives the default to all nodes. (The claim that every node of the tree gets the datum is false: C98_spread_refuted.)", "quantifier": "all documents, blocks and inlines, all data types and values", "why_tests_cant": "The AST is an unbounded recursive type with 25 node kinds; a test looks at a few trees.", "anchors": ["src/ast/convert.rs WithData::with_data, with_default_data"]}
{"id": "C99", "title": "A document is not much larger than its source", "statement": "The size of the document parse_markdown returns (nodes, list items, table rows and cells, and the characters of all strings) is bounded by a constant times the length of the source.", "quantifier": "all sources, all configurations without user code", "why_tests_cant": "The bound must hold for every source; the sources that break it are crafted.", "anchors": ["src/parser/mod.rs:parse_markdown", "src/parser/inline/reference_link.rs:reference_link_shortcut,reference_link_collapsed", "src/parser/link_util.rs:link_label", "src/parser/blocks/table.rs:table"]}
{"id": "C100", "title": "Switches of constructs a source does not use do not matter", "statement": "If a source contains none of the characters a construct cannot do without (for instance no '|' for tables, no '<' for HTML blocks, no '*' or '_' for emphasis, no '&' for the entity table), then changing the configured behaviour of that construct to anything (Parse, Ignore, Skip, any Map or FlatMap hook) does not change the parsed document; in particular plain prose reads the same under every configuration of the built-in constructs.", "quantifier": "all sources, all pairs of configurations that agree on the constructs whose characters occur in the source (any behaviours, hooks and well-behaved custom parsers)", "why_tests_cant": "ranges over all sources and all pairs of configurations, hooks included; the switches are consulted at every position of every nested text", "anchors": ["/repo/src/parser/config.rs: MarkdownParserConfig", "/repo/src/parser/util.rs: conditional_block, conditional_inline", "/repo/src/parser/blocks/mod.rs: block", "/repo/src/parser/inline/mod.rs: inline", "/repo/src/parser/blocks/paragraph.rs: is_paragraph_line_start"]}
{"id": "C101", "title": "Texts in any alphabet are parsed alike", "statement": "Replacing non-ASCII characters of a source without '&' one for one by other non-ASCII characters of the same class (whitespace or not, punctuation or not, corresponding upper case) replaces them in the strings of the parsed document and changes nothing else: block structure, markup, links, tables, list numbering and alerts are the same.", "quantifier": "all sources without '&' of any length, all class-preserving one-to-one replacements of non-ASCII characters, all configurations without user code (any switches, punctuation and upper-case tables)", "why_tests_cant": "ranges over all sources and all permutations of the Unicode alphabet; a test exercises one text in one script", "anchors": ["/repo/src/parser/mod.rs parse_markdown", "/repo/src/parser/blocks/*.rs", "/repo/src/parser/inline/*.rs", "/repo/src/parser/util.rs"]}
{"id": "C102", "title": "The printers treat texts in any alphabet alike", "statement": "Replacing the non-ASCII characters in the strings of a document one for one by others (whitespace by whitespace, decimal digits by digits, with corresponding upper case and equal display widths) replaces them in the HTML, LaTeX and Markdown renderings and changes nothing else: the same tags, commands and markers, the same line breaks, the same table padding, and one rendering panics exactly when the other does. Together with C101 the same holds from source text to output.", "quantifier": "all documents, all such replacements, all printer configurations, all width, upper-case and digit tables; for the end-to-end statement all sources without '&' and all parser configurations without user code", "why_tests_cant": "ranges over all documents and all permutations of the Unicode alphabet; a test renders one text in one script at one width", "anchors": ["/repo/src/html_printer/mod.rs render_html", "/repo/src/latex_printer/mod.rs render_latex", "/repo/src/printer/mod.rs render_markdown", "/repo/src/parser/mod.rs parse_markdown"]}
{"id": "C103", "title": "Formatting a document does not change what it is rendered to", "statement": "Two documents that differ only in where their texts are wrapped (spaces versus line breaks) are rendered to the same HTML and the same LaTeX up to that choice, provided the labels of reference links and definitions contain no blanks; hence formatting a document of the round-trip fragment with render_markdown and parsing the result renders to the same HTML and LaTeX as the original. (With a blank in a label it is false: formatting may wrap the label of a reference differently from that of its definition, and the HTML then loses the link and its text: C103_wrapped_label_refuted.)", "quantifier": "all pairs of documents equal up to wrapping with unbroken labels, all HTML and LaTeX configurations, all width tables; for the end-to-end form all documents of the fragment of C41 and all Markdown printer configurations", "why_tests_cant": "Formatters are run on documents nobody looks at again; the claim is about every document and width, and its one exception needs a label that is wrapped at one place and not at another.", "anchors": ["src/printer/mod.rs:render_markdown", "src/html_printer/index.rs:get_indicies", "src/html_printer/inline.rs", "src/latex_printer/inline.rs", "src/parser/mod.rs:parse_markdown"]}
{"id": "C104", "title": "Labels are only names", "statement": "Consistently replacing the labels of footnotes and of link references and definitions in a document, different labels by different ones, leaves the HTML rendering exactly the same; the LaTeX rendering stays the same up to line breaks if every reference has a definition. (If different labels become the same it is false: C104_merged_refuted.)", "quantifier": "all documents, all replacements that are one-to-one on the labels of the document (link labels keep their footnote references, which take part in the numbering), all HTML and LaTeX configurations, all width tables", "why_tests_cant": "Ranges over all documents and all renamings; a test sees a few labels, and an ordering or hashing dependence on label text would show only for some.", "anchors": ["src/html_printer/index.rs:get_indicies", "src/html_printer/mod.rs:State::get_footnote_index,get_link_definition", "src/latex_printer/mod.rs", "src/latex_printer/inline.rs"]}
{"id": "C105", "title": "A source is rendered to what it means", "statement": "However the lines of the Markdown text of a document are broken, parsing this text and rendering the result to HTML gives exactly the tags, attributes and displayed characters of the document's HTML tree (up to the choice between spaces and line breaks among the displayed characters), properly nested; rendering to LaTeX gives the document's LaTeX text. Paragraphs of prose come out exactly, plain text as its escaped characters between <p> and </p>.", "quantifier": "all documents of the fragment of C41 whose link labels contain no blanks and whose HTML blocks are well-formed markup, all ways of breaking the lines of their Markdown text, all renderer configurations and formatting options; all lists of prose paragraphs", "why_tests_cant": "It connects parser and renderers over unboundedly many documents and exponentially many layouts of each", "anchors": ["src/parser/mod.rs:parse_markdown", "src/html_printer/mod.rs:render_html", "src/latex_printer/mod.rs:render_latex"]}
{"id": "C106", "title": "A document is no more deeply nested than its source is long", "statement": "The nesting depth of every parsed document (blocks in blocks, inlines in inlines, labels included) is at most the length of its source plus one, so that every recursion over it is bounded by the length of the source, even where the document itself is exponentially large (C99). The bound is reached by sources of every length: nothing else limits the depth of the recursion of printers, visitors and transformers.", "quantifier": "all sources and all configurations without user code that keep texts and paragraphs (entity values no longer than their names, upper-casing at most tripling)", "why_tests_cant": "the bound must hold for every nesting of every construct, and only an unbounded family of sources shows that it is reached", "anchors": ["src/parser/mod.rs:parse_markdown", "src/parser/blocks/mod.rs", "src/parser/inline/mod.rs", "src/ast/mod.rs"]}
{"id": "C107", "title": "How long the rendered HTML and LaTeX can be", "statement": "The HTML of a document is at most its size times a constant plus ten times the length of the longest link target (and of the anchor prefix): whatever the nesting, special characters cost at most ten characters each (attribute values are escaped twice) and every node a constant; the LaTeX is at most its size times a constant plus eighteen times the length of the longest link destination, for every style of tables and code. So both are linear in the size of a document without link definitions and at most quadratic in general, and, where references are not read, polynomial in the length of the source. They are not linear with definitions: every reference repeats its target.", "quantifier": "all documents whose numbers are those the program can represent (64-bit list starts, fewer than 2^64 footnotes), all configurations of the printers, all width functions; all sources and configurations for the last part", "why_tests_cant": "an amplification is only visible in families of ever larger documents; the bound is for every nesting of every construct", "anchors": ["src/html_printer/block.rs", "src/html_printer/inline.rs", "src/html_printer/util.rs:tag", "src/html_printer/util.rs:escape", "src/html_printer/github_alert.rs", "src/latex_printer/block.rs", "src/latex_printer/inline.rs", "src/latex_printer/util.rs:escape_latex"]}
