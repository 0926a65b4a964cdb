# Source of /verif/properties.jsonl (run: python3 tools/props.py > properties.jsonl)
import json
P=[]
def p(title, statement, quantifier, why, anchors):
    P.append(dict(id="C%02d"%(len(P)+1), title=title, statement=statement, quantifier=quantifier, why_tests_cant=why, anchors=anchors))
INF="The AST is an unbounded recursive type; a test fixes a handful of trees."
# ---------------- generic AST
p("Attaching and stripping user data is lossless",
  "For every Document d and data value v, d.with_data(v).strip_data() == d (and likewise for blocks and inlines); to_generic/from_generic are mutually inverse on unit data.",
  "all documents, all user-data types and values", INF,
  ["src/ast/convert.rs: WithData, StripData, to_generic, from_generic"])
p("map_user_data changes only the user data",
  "map_user_data(d, f) has exactly the same shape and content as d: stripping the result equals stripping d; mapping the identity gives d back; mapping g after f equals mapping g∘f.",
  "all generic documents, all pure closures", INF+" Closures range over all functions.",
  ["src/ast/map_data_visitor.rs: MapDataVisitor, map_user_data"])
p("map_user_data calls the closure exactly once per node, in a fixed order",
  "With a stateful closure, map_user_data calls it once for every node, in post-order (children left to right, then the node itself; the document last), threading state through, and stores each result on the node whose datum was passed.",
  "all generic documents, all stateful closures and start states", "The order is a property of every tree and every closure state history.",
  ["src/ast/map_data_visitor.rs: visit_document, visit_block, visit_inline, visit_list, visit_table"])
p("Element IDs are unique and sequential",
  "add_ids_to_document / add_ids_from(start) assign to the n nodes of the document exactly the ids start, start+1, ..., start+n-1 (each once), leave the content unchanged, and fail (u64 overflow) exactly when start+n exceeds u64::MAX.",
  "all documents, all u64 start values", INF+" The overflow boundary cannot be reached by allocation in a test.",
  ["src/ast_specialized/utilities.rs: add_ids_to_document, add_ids_from", "src/ast_specialized/element_id.rs: IdGenerator::generate"])
# ---------------- query / visitor
p("find_all returns every matching node, once, in document order",
  "find_all_inlines(p) / find_all_blocks(p) return exactly the nodes satisfying p, in pre-order document order, with multiplicity, nothing else.",
  "all documents and all predicates", INF,
  ["src/ast_transform/query.rs: collect_inlines_from_block, collect_inlines_from_inline, collect_blocks_from_block"])
p("find_first / any / count agree with find_all",
  "find_first_*(p) is the first element of find_all_*(p) (None iff empty), count_*(p) is its length, any_*(p) is true iff it is non-empty.",
  "all documents and all predicates", "Separate hand-written recursions must agree on every tree.",
  ["src/ast_transform/query.rs: find_first_inline_in_block, find_first_inline_in_inline, find_first_block_in_block, count_inlines, any_inline"])
p("Typed finders return exactly the nodes of their kind",
  "find_all_links/images/headings/autolinks/text/code_spans/code_blocks/tables/lists return the payloads of all nodes of that kind in document order.",
  "all documents", INF, ["src/ast_transform/query.rs: Query::find_all_links .. find_all_lists"])
p("Default visitor traversal reaches every node once, in document order",
  "A visitor whose hooks record the node and then continue with the default walk records every block, inline, list item, table row, cell, heading, link, image, code block, text, footnote and alert exactly once in pre-order.",
  "all documents, all accumulator states", INF, ["src/ast_transform/visitor.rs: Visitor::walk_block, walk_inline and the other walk_* defaults"])
p("Visitor and Query see the same nodes",
  "Collecting matching inlines (blocks) with a Visitor yields the same sequence as find_all_inlines (find_all_blocks) with the same predicate.",
  "all documents and predicates", "Two independent traversals must agree on every tree.",
  ["src/ast_transform/visitor.rs", "src/ast_transform/query.rs"])
# ---------------- transformer
p("The default transformer is the identity",
  "Transforming a document with a Transformer that overrides nothing returns an equal document.",
  "all documents", INF, ["src/ast_transform/transformer.rs: Transformer::walk_transform_*"])
p("transform_text rewrites every text node and nothing else",
  "d.transform_text(f): the list of text nodes of the result is f mapped over the list of text nodes of d, and apart from text contents the two documents are identical.",
  "all documents, all functions f", INF, ["src/ast_transform/convenience.rs: TextTransformer"])
p("transform_image_urls / link_urls / autolink_urls rewrite exactly their URLs",
  "Each rewrites every URL of its kind (also inside nested formatting and links) by f exactly once and leaves everything else identical.",
  "all documents, all functions f", INF, ["src/ast_transform/convenience.rs: ImageUrlTransformer, LinkUrlTransformer, AutolinkTransformer"])
p("transform_code / transform_html rewrite exactly their strings",
  "transform_code rewrites code spans only (not code blocks); transform_html rewrites inline Html and HtmlBlock only.",
  "all documents, all functions f", INF, ["src/ast_transform/convenience.rs: CodeTransformer, HtmlTransformer"])
p("Convenience transforms satisfy identity and fusion laws",
  "transform_X(id) is the identity and transform_X(g) after transform_X(f) equals transform_X(g∘f); transforms of different kinds commute.",
  "all documents, all functions", INF, ["src/ast_transform/convenience.rs: Transform for Document"])
p("remove_empty_text replaces exactly the blank text nodes",
  "After remove_empty_text no text node is whitespace-only, every other node is unchanged, and a second application changes nothing.",
  "all documents", INF, ["src/ast_transform/convenience.rs: EmptyTextRemover"])
p("normalize_whitespace yields canonical text",
  "After normalize_whitespace every text node has no leading/trailing whitespace and no whitespace other than single spaces between words, its word sequence is unchanged, and a second application changes nothing.",
  "all documents, all strings", "Quantifies over all strings and trees.", ["src/ast_transform/convenience.rs: normalize_whitespace"])
p("remove_empty_paragraphs / filter_blocks filter exactly the top level",
  "They keep exactly the top-level blocks satisfying the criterion, in order, unchanged; nested blocks are not touched.",
  "all documents and predicates", INF, ["src/ast_transform/convenience.rs: FilterTransform for Document"])
p("Pipelines apply their steps in order",
  "TransformPipeline::apply(d) equals applying the steps left to right; when(false,..) adds nothing, when(true,b) equals inlining b's steps; when_doc applies the sub-pipeline iff the predicate holds of the document at that point; CompositeTransformer is sequential composition.",
  "all pipelines, documents, predicates", "Pipelines are arbitrary-length histories.", ["src/ast_transform/pipeline.rs: TransformPipeline", "src/ast_transform/transformer.rs: CompositeTransformer"])
p("Expansion with default hooks is the singleton identity",
  "d.expand_with(t) with a transformer overriding nothing returns exactly [d].",
  "all documents (simple and generic)", INF, ["src/ast_transform/transformer.rs: walk_expand_*", "src/ast_transform/generic_transformer.rs: walk_expand_*"])
p("Expansion is local flat-mapping",
  "If an inline is expanded to several inlines, the parent's child list is the in-order concatenation of the expansions; siblings and ancestors are otherwise unchanged.",
  "all documents, all expansion functions", INF, ["src/ast_transform/transformer.rs: walk_expand_block, walk_expand_inline"])
p("The default generic transformer preserves structure and user data",
  "Transforming Document<T> with a GenericTransformer overriding nothing returns an equal document, including all user data.",
  "all generic documents and user-data types", INF, ["src/ast_transform/generic_transformer.rs: walk_transform_*"])
# ---------------- HTML
p("HTML escaping is safe and lossless",
  "escape(s) contains none of < > \" ' and every & in it starts one of the five entities; decoding the entities gives s back, so escape is injective.",
  "all strings", "Quantifies over all strings.", ["src/html_printer/util.rs: escape"])
p("render_html produces well-formed, balanced markup",
  "For a document without raw HTML (and with alert labels free of markup characters), the output is a sequence of properly nested elements with quoted attributes, and text free of < and >.",
  "all such documents, all configs", INF, ["src/html_printer/util.rs: tag", "src/html_printer/block.rs", "src/html_printer/inline.rs", "src/html_printer/github_alert.rs"])
p("User content cannot inject markup",
  "The tag structure of the HTML output is determined by the document's structure alone: replacing text, code, URLs, titles, alt texts by other strings never changes the sequence of tags (documented: 'All user content is properly escaped').",
  "all documents without raw HTML", "Security claim over all strings in all positions.", ["src/html_printer/mod.rs: render_html (Security)", "src/html_printer/github_alert.rs: html_title"])
p("Attribute values carry the AST value",
  "HTML-decoding the href/src/alt/title attribute of a rendered link or image gives the destination/alt/title stored in the AST.",
  "all strings", "Quantifies over all strings.", ["src/html_printer/util.rs: tag, escape", "src/html_printer/inline.rs"])
p("HTML output does not depend on the configured width",
  "render_html(d, width w1) == render_html(d, width w2).",
  "all documents, all widths", "Needs the layout algorithm for all trees and widths.", ["src/html_printer/mod.rs: render_html", "src/html_printer/config.rs: with_width"])
p("HTML footnote numbers are 1..n in order of first reference",
  "The footnote index assigns to the indexed labels the numbers 1..n without gaps or duplicates, in order of first indexed reference in document order; a repeated reference gets the same number.",
  "all documents", INF, ["src/html_printer/index.rs: get_indicies, add_footnote"])
p("Every footnote reference is numbered",
  "Every footnote reference in the document is rendered as a numbered link.",
  "all documents", INF, ["src/html_printer/index.rs: get_inline_indicies", "src/html_printer/inline.rs: FootnoteReference"])
p("Reference links resolve to the matching definition",
  "A reference link is rendered as <a> with the destination/title of a definition whose label equals the reference's label; it depends only on the definitions in the document. When several match, which one wins is fixed; when none matches its text is still output.",
  "all documents", INF, ["src/html_printer/index.rs: get_block_indicies (Definition)", "src/html_printer/inline.rs: LinkReference"])
p("render_html never panics",
  "render_html returns a string for every document.",
  "all documents, all configs", "A panic needs a specific shape anywhere in an unbounded tree.", ["src/html_printer/block.rs: Table::to_doc (rows.first().unwrap())"])
p("Visible text reaches the HTML output",
  "For documents without reference links and footnotes, the concatenation of all text/code contents in document order equals the entity-decoded text content of the HTML.",
  "all such documents", INF, ["src/html_printer/inline.rs", "src/html_printer/block.rs"])
# ---------------- LaTeX
p("LaTeX escaping is safe and lossless",
  "escape_latex(s) contains no unescaped LaTeX special character, has balanced braces, and is injective (there is a decoder).",
  "all strings", "Quantifies over all strings.", ["src/latex_printer/util.rs: escape_latex"])
p("render_latex output has balanced groups and environments",
  "For documents whose code blocks/alert labels do not themselves contain LaTeX specials, every { is matched and every \\begin{e} has its \\end{e}, properly nested.",
  "all such documents and configs", INF, ["src/latex_printer/util.rs: command, environment", "src/latex_printer/block.rs", "src/latex_printer/table.rs"])
p("LaTeX footnote numbers come from definitions",
  "The k-th footnote definition met in document order (through lists, quotes and alerts) gets number k; distinct labels get distinct numbers.",
  "all documents", INF, ["src/latex_printer/mod.rs: get_indices"])
p("Width changes only whitespace in LaTeX output",
  "Rendering with two different widths gives the same characters once spaces and newlines are removed.",
  "all documents, all widths", "Needs all layouts.", ["src/latex_printer/mod.rs: render_latex", "src/latex_printer/inline.rs"])
# ---------------- Markdown printer
p("Rendered Markdown tables are aligned",
  "For a rectangular table every output row, including the delimiter row, has the same number of characters, and cell k occupies the same columns in every row.",
  "all rectangular tables with single-line cells", "Quantifies over all cell contents and sizes.", ["src/printer/table.rs: columns_width, cell_to_doc, alignment_to_doc"])
p("render_markdown never panics",
  "render_markdown returns a string for every document and every width.",
  "all documents, all configs", "Arithmetic underflow/overflow at boundary values.", ["src/printer/table.rs: cell_to_doc", "src/printer/list.rs", "src/printer/blockquote.rs"])
p("Line wrapping never creates block syntax",
  "In a rendered text paragraph, a line created by wrapping never starts with a word that the parser would take for block syntax.",
  "all texts, all widths", "Quantifies over all texts and all layouts.", ["src/printer/inline.rs: safe_text_layout", "src/printer/markdown_syntax_detector.rs: is_markdown_syntax_at_line_start"])
p("Width changes only whitespace in Markdown output",
  "For documents without block quotes, alerts: rendering at two widths gives the same characters up to spaces/newlines.",
  "all such documents, all widths", "Needs all layouts.", ["src/printer/mod.rs: render_markdown"])
p("Ordered lists are numbered consecutively from the start value",
  "The i-th item of an ordered list is printed with number start+i, bullets with the list's marker, tasks with [X]/[ ].",
  "all lists, all start values", INF, ["src/printer/list.rs"])
p("Round trip on the plain fragment",
  "parse_markdown(render_markdown(d)) == d for documents built from ATX headings, paragraphs of plain words, thematic breaks and fenced code (full claim: parse(render(parse(s))) is equivalent to parse(s)).",
  "all documents of the fragment, all widths", "Quantifies over all documents and widths.", ["src/printer/mod.rs: Round-trip Guarantee", "src/parser/mod.rs: parse_markdown"])
# ---------------- parser
p("Parsing terminates and succeeds on every input",
  "parse_markdown with the default configuration returns Ok for every string; more generally for every configuration without custom parsers in which text and paragraphs are not Ignored.",
  "all strings, all such configurations", "All inputs; termination.", ["src/parser/mod.rs: parse_markdown", "src/parser/blocks/mod.rs: block", "src/parser/inline/mod.rs: inline"])
p("No inline content is silently dropped",
  "The inline parser consumes its whole input: the remainder that the code discards after inline_many0/inline_many1 is always empty.",
  "all strings, all configurations that do not Ignore text", "All inputs.", ["src/parser/inline/mod.rs: inline_many0, inline_many1", "src/parser/blocks/paragraph.rs", "src/parser/blocks/heading.rs"])
p("No nested block content is silently dropped",
  "The remainder discarded after parsing the inside of a block quote, list item, footnote or alert is always blank.",
  "all strings, same configurations", "All inputs.", ["src/parser/blocks/blockquote.rs", "src/parser/blocks/list.rs: list_item", "src/parser/blocks/footnote_definition.rs", "src/parser/blocks/github_alert.rs"])
p("Parsed headings have level 1 to 6",
  "Every ATX heading anywhere in a parsed document has level between 1 and 6.",
  "all strings, all configurations without rewriting hooks", "All inputs.", ["src/parser/blocks/heading.rs: heading_v1"])
p("Parsed tables are rectangular",
  "Every table anywhere in a parsed document has at least one column, alignments.len() == number of header cells, and every row has exactly that many cells.",
  "all strings, all configurations without rewriting hooks", "All inputs.", ["src/parser/blocks/table.rs: table, parse_table_data_rows", "src/ast/mod.rs: Table"])
p("Adjacent text nodes are merged",
  "No inline list anywhere in a parsed document contains two consecutive Text nodes.",
  "all strings, all configurations without rewriting hooks", "All inputs.", ["src/parser/inline/mod.rs: merge_consecutive_text_elements"])
p("Merging text preserves content",
  "merge_consecutive_text_elements keeps all non-text elements in order and the concatenated text between them, and is idempotent.",
  "all inline lists", "All lists.", ["src/parser/inline/mod.rs: merge_consecutive_text_elements"])
p("Parsed lists are non-empty and bounded",
  "Every list in a parsed document has at least one item; an ordered list's start fits u64 and equals the number written.",
  "all strings", "All inputs.", ["src/parser/blocks/list.rs: list, list_marker_ordered"])
p("Ignore removes an element kind",
  "With ElementBehavior::Ignore for an element, no node of that kind occurs anywhere in the parsed document.",
  "all strings, all configurations without rewriting hooks", "All inputs and 24 switches.", ["src/parser/util.rs: conditional, conditional_block_vec", "src/parser/blocks/mod.rs", "src/parser/inline/mod.rs"])
p("Skip removes an element kind but keeps consuming it",
  "With ElementBehavior::Skip for an element, no node of that kind occurs in the document; Empty stands in its place and the rest of the document is parsed as with Parse.",
  "all strings, all configurations without rewriting hooks", "All inputs.", ["src/parser/util.rs: conditional"])
p("Paragraph behaviour controls paragraphs",
  "block_paragraph_behavior decides what happens to ordinary paragraphs; block_heading_v2_behavior only affects setext headings.",
  "all strings and configurations", "Interaction of switches with alternatives order.", ["src/parser/blocks/heading.rs: heading_v2_or_paragraph", "src/parser/blocks/mod.rs: block"])
p("Map(identity) and FlatMap(singleton) equal Parse",
  "Replacing Parse by Map(|x| x) or FlatMap(|x| vec![x]) for any element never changes the parse result.",
  "all strings, all configurations", "All inputs.", ["src/parser/util.rs: conditional"])
p("GitHub alert markers",
  "[!NOTE] .. [!CAUTION] are recognised case-insensitively with surrounding blanks; any other identifier is a custom alert carrying its upper-cased name.",
  "all marker strings", "All strings.", ["src/parser/blocks/github_alert.rs: parse_alert_marker, parse_custom_alert_name"])
p("Every parsed document can be rendered",
  "For every string s, rendering parse_markdown(s) with render_html never panics; with render_markdown it never panics unless an ordered-list number overflows u64 or the width is too small for quotes.",
  "all strings", "Composition of parser and printers over all inputs.", ["src/parser/mod.rs", "src/html_printer/mod.rs", "src/printer/mod.rs"])
p("Code spans and fenced blocks keep their content literally",
  "The content of a parsed code span is the text between the tick runs with line endings as spaces and one blank stripped on both sides; the literal of a fenced block is its lines joined by \\n; printing then parsing a fenced block gives it back.",
  "all contents without the closing fence", "All strings.", ["src/parser/inline/code_span.rs", "src/parser/blocks/code_block.rs", "src/printer/block.rs"])
p("Numeric character references decode exactly",
  "&#N; and &#xH; decode to the scalar value N / H iff it is a valid Unicode scalar value, otherwise the text is left undecoded.",
  "all digit strings", "All digit strings including overflow.", ["src/parser/inline/html_entity.rs: html_entity_numeric"])
p("Link labels are bounded and non-blank",
  "A link/reference label is accepted only if its unescaped text has fewer than 1000 characters and a character other than space/newline.",
  "all strings", "All inputs; boundary at 1000.", ["src/parser/link_util.rs: link_label_inner"])
for x in P: print(json.dumps(x, ensure_ascii=False))
