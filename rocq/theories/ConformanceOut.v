(** The repository's own tests of the HTML and LaTeX printers
    (/repo/src/html_printer/tests, /repo/src/latex_printer/tests and util.rs),
    evaluated on the model: GENERATED by tools/conformance_out.py.  They validate
    the model; they are not proofs of properties. *)
From Coq Require Import String.
From Verif Require Import HtmlPrinter LatexPrinter ParserBlock ConformanceParser.
Import ListNotations.
Open Scope list_scope.

Fixpoint starts (p s : str) : bool := match p, s with [], _ => true | a :: p, b :: s => N.eqb a b && starts p s | _, _ => false end.
(** Rust: [str::contains], number of [str::matches] (non-overlapping) *)
Fixpoint contains (s p : str) : bool := starts p s || match s with [] => false | _ :: s => contains s p end.
Fixpoint matches (n : nat) (s p : str) : nat :=
  match n with 0 => 0 | S n => if starts p s then S (matches n (skipn (List.length p) s) p) else match s with [] => 0 | _ :: s => matches n s p end end.
Definition latex (c : latex_config) (d : document) : str := match render_latex (@List.length char) d c with Some s => s | None => lit "panic" end.
Definition html_round (s : str) : option str :=
  match parse_markdown test_config s with Ok _ d => render_html (@List.length char) d (HtmlConfig 80 []) | _ => None end.

Example html_0 : html_round (lit "Hello, world!") =
  Some (lit "<p>Hello, world!</p>").
Proof. vm_compute. reflexivity. Qed.
Example html_1 : html_round (lit "Hello, **world**!") =
  Some (lit "<p>Hello, <b>world</b>!</p>").
Proof. vm_compute. reflexivity. Qed.
Example html_2 : html_round (lit "Hello, *world*!") =
  Some (lit "<p>Hello, <em>world</em>!</p>").
Proof. vm_compute. reflexivity. Qed.
Example html_3 : html_round (lit "Hello, __world__!") =
  Some (lit "<p>Hello, <b>world</b>!</p>").
Proof. vm_compute. reflexivity. Qed.
Example html_4 : html_round (lit "Hello, _world_!") =
  Some (lit "<p>Hello, <em>world</em>!</p>").
Proof. vm_compute. reflexivity. Qed.
Example html_5 : html_round (lit "Hello, ~~world~~!") =
  Some (lit "<p>Hello, <s>world</s>!</p>").
Proof. vm_compute. reflexivity. Qed.
Example html_6 : html_round (lit "1. Item 1
2. Item 2") =
  Some (lit "<ol start=""1""><li><p>Item 1</p></li><li><p>Item 2</p></li></ol>").
Proof. vm_compute. reflexivity. Qed.
Example html_7 : html_round (lit "* Item 1
* Item 2") =
  Some (lit "<ul class=""markdown-list-kind-star""><li><p>Item 1</p></li><li><p>Item 2</p></li></ul>").
Proof. vm_compute. reflexivity. Qed.
Example html_8 : html_round (lit "`code`") =
  Some (lit "<p><code>code</code></p>").
Proof. vm_compute. reflexivity. Qed.
Example html_9 : html_round (lit "```rust
fn main() {}
```") =
  Some (lit "<pre><code>fn main() {}</code></pre>").
Proof. vm_compute. reflexivity. Qed.
Example html_10 : html_round (lit "[Google][1]

[1]: https://www.google.com 'Search engine'") =
  Some (lit "<p><a href=""https://www.google.com"" title=""Search engine"">Google</a></p>").
Proof. vm_compute. reflexivity. Qed.
Example html_11 : html_round (lit "Hello[^1]

[^1]: This is a footnote.") =
  Some (lit "<p>Hello<a class=""markdown-footnote-reference"" href=""#1"">[1]</a></p><div class=""markdown-footnote-definition""><span class=""markdown-footnote-definition-index"">1. </span><span class=""markdown-footnote-definition-content""><p>This is a footnote.</p></span></div>").
Proof. vm_compute. reflexivity. Qed.
Example html_12 : html_round (lit "![alt text](https://example.com/image.png)") =
  Some (lit "<p><img src=""https://example.com/image.png"" alt=""alt text""></img></p>").
Proof. vm_compute. reflexivity. Qed.
Example html_13 : html_round (lit "| Header 1 | Header 2 |
| --- | --: |
| Row 1 Col 1 | Row 1 Col 2 |
| Row 2 Col 1 | Col 2       |") =
  Some (lit "<table><thead><tr><th class=""markdown-table-align-left"">Header 1</th><th class=""markdown-table-align-right"">Header 2</th></tr></thead><tbody><tr><td class=""markdown-table-align-left"">Row 1 Col 1</td><td class=""markdown-table-align-right"">Row 1 Col 2</td></tr><tr><td class=""markdown-table-align-left"">Row 2 Col 1</td><td class=""markdown-table-align-right"">Col 2</td></tr></tbody></table>").
Proof. vm_compute. reflexivity. Qed.
Example esc_0 : escape_latex (lit "Hello & goodbye") = (lit "Hello \& goodbye").
Proof. vm_compute. reflexivity. Qed.
Example esc_1 : escape_latex (lit "Price: $100") = (lit "Price: \$100").
Proof. vm_compute. reflexivity. Qed.
Example esc_2 : escape_latex (lit "50% off") = (lit "50\% off").
Proof. vm_compute. reflexivity. Qed.
Example esc_3 : escape_latex (lit "hello") = (lit "hello").
Proof. vm_compute. reflexivity. Qed.
Example esc_4 : escape_latex (lit "$100") = (lit "\$100").
Proof. vm_compute. reflexivity. Qed.
Example esc_5 : escape_latex (lit "A & B") = (lit "A \& B").
Proof. vm_compute. reflexivity. Qed.
Example esc_6 : escape_latex (lit "50%") = (lit "50\%").
Proof. vm_compute. reflexivity. Qed.
Example esc_7 : escape_latex (lit "#hashtag") = (lit "\#hashtag").
Proof. vm_compute. reflexivity. Qed.
Example esc_8 : escape_latex (lit "x^2") = (lit "x\textasciicircum{}2").
Proof. vm_compute. reflexivity. Qed.
Example esc_9 : escape_latex (lit "file_name") = (lit "file\_name").
Proof. vm_compute. reflexivity. Qed.
Example esc_10 : escape_latex (lit "~home") = (lit "\textasciitilde{}home").
Proof. vm_compute. reflexivity. Qed.
Example esc_11 : escape_latex (lit "{code}") = (lit "\{code\}").
Proof. vm_compute. reflexivity. Qed.
Example esc_12 : escape_latex (lit "\command") = (lit "\textbackslash{}command").
Proof. vm_compute. reflexivity. Qed.
Definition d_comprehensive_test_thematic_break_doc : document :=
  (Document [BThematicBreak]).
Example l_comprehensive_test_thematic_break_2 : contains (latex (LatexConfig 80 Tabular Verbatim) d_comprehensive_test_thematic_break_doc) (lit "\hrule") = true.
Proof. vm_compute. reflexivity. Qed.
Definition d_comprehensive_test_html_block_doc : document :=
  (Document [(BHtmlBlock (lit "<div>Raw HTML</div>"))]).
Example l_comprehensive_test_html_block_2 : contains (latex (LatexConfig 80 Tabular Verbatim) d_comprehensive_test_html_block_doc) (lit "<div>Raw HTML</div>") = true.
Proof. vm_compute. reflexivity. Qed.
Definition d_comprehensive_test_definition_block_doc : document :=
  (Document [(BDefinition (LinkDefinition [(IText (lit "example"))] (lit "https://example.com") (Some (lit "Example Site"))))]).
Example l_comprehensive_test_definition_block_2 : trim (latex (LatexConfig 80 Tabular Verbatim) d_comprehensive_test_definition_block_doc) = [].
Proof. vm_compute. reflexivity. Qed.
Definition d_comprehensive_test_footnote_definition_doc : document :=
  (Document [(BFootnoteDefinition (FootnoteDefinition (lit "note1") [(BParagraph [(IText (lit "This is a footnote."))])]))]).
Example l_comprehensive_test_footnote_definition_2 : contains (latex (LatexConfig 80 Tabular Verbatim) d_comprehensive_test_footnote_definition_doc) (lit "\footnotetext") = true.
Proof. vm_compute. reflexivity. Qed.
Example l_comprehensive_test_footnote_definition_3 : contains (latex (LatexConfig 80 Tabular Verbatim) d_comprehensive_test_footnote_definition_doc) (lit "[1]") = true.
Proof. vm_compute. reflexivity. Qed.
Example l_comprehensive_test_footnote_definition_4 : contains (latex (LatexConfig 80 Tabular Verbatim) d_comprehensive_test_footnote_definition_doc) (lit "This is a footnote.") = true.
Proof. vm_compute. reflexivity. Qed.
Definition d_comprehensive_test_empty_block_doc : document :=
  (Document [(BParagraph [(IText (lit "Before"))]); BEmpty; (BParagraph [(IText (lit "After"))])]).
Example l_comprehensive_test_empty_block_2 : contains (latex (LatexConfig 80 Tabular Verbatim) d_comprehensive_test_empty_block_doc) (lit "Before") = true.
Proof. vm_compute. reflexivity. Qed.
Example l_comprehensive_test_empty_block_3 : contains (latex (LatexConfig 80 Tabular Verbatim) d_comprehensive_test_empty_block_doc) (lit "After") = true.
Proof. vm_compute. reflexivity. Qed.
Definition d_comprehensive_test_line_break_doc : document :=
  (Document [(BParagraph [(IText (lit "Line 1")); ILineBreak; (IText (lit "Line 2"))])]).
Example l_comprehensive_test_line_break_2 : contains (latex (LatexConfig 80 Tabular Verbatim) d_comprehensive_test_line_break_doc) (lit "Line 1\\") = true.
Proof. vm_compute. reflexivity. Qed.
Example l_comprehensive_test_line_break_3 : contains (latex (LatexConfig 80 Tabular Verbatim) d_comprehensive_test_line_break_doc) (lit "Line 2") = true.
Proof. vm_compute. reflexivity. Qed.
Definition d_comprehensive_test_inline_code_doc : document :=
  (Document [(BParagraph [(IText (lit "Use ")); (ICode (lit "println!()")); (IText (lit " function."))])]).
Example l_comprehensive_test_inline_code_2 : contains (latex (LatexConfig 80 Tabular Verbatim) d_comprehensive_test_inline_code_doc) (lit "\texttt{println!()}") = true.
Proof. vm_compute. reflexivity. Qed.
Definition d_comprehensive_test_inline_html_doc : document :=
  (Document [(BParagraph [(IText (lit "Some ")); (IHtml (lit "<em>HTML</em>")); (IText (lit " content."))])]).
Example l_comprehensive_test_inline_html_2 : contains (latex (LatexConfig 80 Tabular Verbatim) d_comprehensive_test_inline_html_doc) (lit "<em>HTML</em>") = true.
Proof. vm_compute. reflexivity. Qed.
Definition d_comprehensive_test_link_reference_doc : document :=
  (Document [(BDefinition (LinkDefinition [(IText (lit "example"))] (lit "https://example.com") None)); (BParagraph [(IText (lit "Visit ")); (ILinkReference (LinkReference [(IText (lit "example"))] [(IText (lit "this site"))])); (IText (lit "."))])]).
Example l_comprehensive_test_link_reference_2 : contains (latex (LatexConfig 80 Tabular Verbatim) d_comprehensive_test_link_reference_doc) (lit "\href") = true.
Proof. vm_compute. reflexivity. Qed.
Example l_comprehensive_test_link_reference_3 : contains (latex (LatexConfig 80 Tabular Verbatim) d_comprehensive_test_link_reference_doc) (lit "https://example.com") = true.
Proof. vm_compute. reflexivity. Qed.
Example l_comprehensive_test_link_reference_4 : contains (latex (LatexConfig 80 Tabular Verbatim) d_comprehensive_test_link_reference_doc) (lit "this site") = true.
Proof. vm_compute. reflexivity. Qed.
Definition d_comprehensive_test_link_reference_unresolved_doc : document :=
  (Document [(BParagraph [(ILinkReference (LinkReference [(IText (lit "missing"))] [(IText (lit "broken link"))]))])]).
Example l_comprehensive_test_link_reference_unresolved_2 : contains (latex (LatexConfig 80 Tabular Verbatim) d_comprehensive_test_link_reference_unresolved_doc) (lit "[broken link][missing]") = true.
Proof. vm_compute. reflexivity. Qed.
Definition d_comprehensive_test_image_doc : document :=
  (Document [(BParagraph [(IImage (Image (lit "image.png") (Some (lit "My Image")) (lit "Alt text")))])]).
Example l_comprehensive_test_image_2 : contains (latex (LatexConfig 80 Tabular Verbatim) d_comprehensive_test_image_doc) (lit "\includegraphics") = true.
Proof. vm_compute. reflexivity. Qed.
Example l_comprehensive_test_image_3 : contains (latex (LatexConfig 80 Tabular Verbatim) d_comprehensive_test_image_doc) (lit "image.png") = true.
Proof. vm_compute. reflexivity. Qed.
Example l_comprehensive_test_image_4 : contains (latex (LatexConfig 80 Tabular Verbatim) d_comprehensive_test_image_doc) (lit "\caption") = true.
Proof. vm_compute. reflexivity. Qed.
Example l_comprehensive_test_image_5 : contains (latex (LatexConfig 80 Tabular Verbatim) d_comprehensive_test_image_doc) (lit "Alt text") = true.
Proof. vm_compute. reflexivity. Qed.
Definition d_comprehensive_test_image_no_alt_doc : document :=
  (Document [(BParagraph [(IImage (Image (lit "image.png") None []))])]).
Example l_comprehensive_test_image_no_alt_2 : contains (latex (LatexConfig 80 Tabular Verbatim) d_comprehensive_test_image_no_alt_doc) (lit "\includegraphics") = true.
Proof. vm_compute. reflexivity. Qed.
Example l_comprehensive_test_image_no_alt_3 : contains (latex (LatexConfig 80 Tabular Verbatim) d_comprehensive_test_image_no_alt_doc) (lit "image.png") = true.
Proof. vm_compute. reflexivity. Qed.
Example l_comprehensive_test_image_no_alt_4 : contains (latex (LatexConfig 80 Tabular Verbatim) d_comprehensive_test_image_no_alt_doc) (lit "\caption") = false.
Proof. vm_compute. reflexivity. Qed.
Definition d_comprehensive_test_strikethrough_doc : document :=
  (Document [(BParagraph [(IText (lit "This is ")); (IStrikethrough [(IText (lit "crossed out"))]); (IText (lit " text."))])]).
Example l_comprehensive_test_strikethrough_2 : contains (latex (LatexConfig 80 Tabular Verbatim) d_comprehensive_test_strikethrough_doc) (lit "\sout{crossed out}") = true.
Proof. vm_compute. reflexivity. Qed.
Definition d_comprehensive_test_autolink_doc : document :=
  (Document [(BParagraph [(IText (lit "Visit ")); (IAutolink (lit "https://example.com")); (IText (lit "."))])]).
Example l_comprehensive_test_autolink_2 : contains (latex (LatexConfig 80 Tabular Verbatim) d_comprehensive_test_autolink_doc) (lit "\url{https://example.com}") = true.
Proof. vm_compute. reflexivity. Qed.
Definition d_comprehensive_test_footnote_reference_doc : document :=
  (Document [(BFootnoteDefinition (FootnoteDefinition (lit "note1") [(BParagraph [(IText (lit "Footnote content"))])])); (BParagraph [(IText (lit "Text with footnote")); (IFootnoteReference (lit "note1")); (IText (lit "."))])]).
Example l_comprehensive_test_footnote_reference_2 : contains (latex (LatexConfig 80 Tabular Verbatim) d_comprehensive_test_footnote_reference_doc) (lit "\footnotemark") = true.
Proof. vm_compute. reflexivity. Qed.
Example l_comprehensive_test_footnote_reference_3 : contains (latex (LatexConfig 80 Tabular Verbatim) d_comprehensive_test_footnote_reference_doc) (lit "[1]") = true.
Proof. vm_compute. reflexivity. Qed.
Example l_comprehensive_test_footnote_reference_4 : contains (latex (LatexConfig 80 Tabular Verbatim) d_comprehensive_test_footnote_reference_doc) (lit "\footnotetext") = true.
Proof. vm_compute. reflexivity. Qed.
Definition d_comprehensive_test_footnote_reference_unresolved_doc : document :=
  (Document [(BParagraph [(IText (lit "Text")); (IFootnoteReference (lit "missing")); (IText (lit "."))])]).
Example l_comprehensive_test_footnote_reference_unresolved_2 : contains (latex (LatexConfig 80 Tabular Verbatim) d_comprehensive_test_footnote_reference_unresolved_doc) (lit "[^missing]") = true.
Proof. vm_compute. reflexivity. Qed.
Definition d_comprehensive_test_empty_inline_doc : document :=
  (Document [(BParagraph [(IText (lit "Before")); IEmpty; (IText (lit "After"))])]).
Example l_comprehensive_test_empty_inline_2 : contains (latex (LatexConfig 80 Tabular Verbatim) d_comprehensive_test_empty_inline_doc) (lit "BeforeAfter") = true.
Proof. vm_compute. reflexivity. Qed.
Definition d_comprehensive_test_all_heading_levels_doc : document :=
  (Document [(BHeading (Heading (Atx 1%N) [(IText (lit "Level 1"))])); (BHeading (Heading (Atx 2%N) [(IText (lit "Level 2"))])); (BHeading (Heading (Atx 3%N) [(IText (lit "Level 3"))])); (BHeading (Heading (Atx 4%N) [(IText (lit "Level 4"))])); (BHeading (Heading (Atx 5%N) [(IText (lit "Level 5"))])); (BHeading (Heading (Atx 6%N) [(IText (lit "Level 6"))])); (BHeading (Heading (Setext Level2) [(IText (lit "Setext 2"))]))]).
Example l_comprehensive_test_all_heading_levels_2 : contains (latex (LatexConfig 80 Tabular Verbatim) d_comprehensive_test_all_heading_levels_doc) (lit "\section{Level 1}") = true.
Proof. vm_compute. reflexivity. Qed.
Example l_comprehensive_test_all_heading_levels_3 : contains (latex (LatexConfig 80 Tabular Verbatim) d_comprehensive_test_all_heading_levels_doc) (lit "\subsection{Level 2}") = true.
Proof. vm_compute. reflexivity. Qed.
Example l_comprehensive_test_all_heading_levels_4 : contains (latex (LatexConfig 80 Tabular Verbatim) d_comprehensive_test_all_heading_levels_doc) (lit "\subsubsection{Level 3}") = true.
Proof. vm_compute. reflexivity. Qed.
Example l_comprehensive_test_all_heading_levels_5 : contains (latex (LatexConfig 80 Tabular Verbatim) d_comprehensive_test_all_heading_levels_doc) (lit "\paragraph{Level 4}") = true.
Proof. vm_compute. reflexivity. Qed.
Example l_comprehensive_test_all_heading_levels_6 : contains (latex (LatexConfig 80 Tabular Verbatim) d_comprehensive_test_all_heading_levels_doc) (lit "\subparagraph{Level 5}") = true.
Proof. vm_compute. reflexivity. Qed.
Example l_comprehensive_test_all_heading_levels_7 : contains (latex (LatexConfig 80 Tabular Verbatim) d_comprehensive_test_all_heading_levels_doc) (lit "\subparagraph{Level 6}") = true.
Proof. vm_compute. reflexivity. Qed.
Example l_comprehensive_test_all_heading_levels_8 : contains (latex (LatexConfig 80 Tabular Verbatim) d_comprehensive_test_all_heading_levels_doc) (lit "\subsection{Setext 2}") = true.
Proof. vm_compute. reflexivity. Qed.
Definition d_comprehensive_test_indented_code_block_doc : document :=
  (Document [(BCodeBlock (CodeBlock Indented (lit "def hello():
    print('Hello')")))]).
Example l_comprehensive_test_indented_code_block_2 : contains (latex (LatexConfig 80 Tabular Verbatim) d_comprehensive_test_indented_code_block_doc) (lit "\begin{verbatim}") = true.
Proof. vm_compute. reflexivity. Qed.
Example l_comprehensive_test_indented_code_block_3 : contains (latex (LatexConfig 80 Tabular Verbatim) d_comprehensive_test_indented_code_block_doc) (lit "def hello():") = true.
Proof. vm_compute. reflexivity. Qed.
Definition d_comprehensive_test_table_longtabu_doc : document :=
  (Document [(BTable (Table [[[(IText (lit "A"))]; [(IText (lit "B"))]]; [[(IText (lit "1"))]; [(IText (lit "2"))]]] [ACenter; ARight]))]).
Example l_comprehensive_test_table_longtabu_2 : contains (latex (LatexConfig 80 Longtabu Verbatim) d_comprehensive_test_table_longtabu_doc) (lit "\begin{longtabu}") = true.
Proof. vm_compute. reflexivity. Qed.
Example l_comprehensive_test_table_longtabu_3 : contains (latex (LatexConfig 80 Longtabu Verbatim) d_comprehensive_test_table_longtabu_doc) (lit "X[l] to \textwidth") = true.
Proof. vm_compute. reflexivity. Qed.
Example l_comprehensive_test_table_longtabu_4 : contains (latex (LatexConfig 80 Longtabu Verbatim) d_comprehensive_test_table_longtabu_doc) (lit "{cr}") = true.
Proof. vm_compute. reflexivity. Qed.
Definition d_comprehensive_test_table_booktabs_doc : document :=
  (Document [(BTable (Table [[[(IText (lit "Header"))]; [(IText (lit "Value"))]]; [[(IText (lit "Row1"))]; [(IText (lit "Data1"))]]] [ALeft; ACenter]))]).
Example l_comprehensive_test_table_booktabs_2 : contains (latex (LatexConfig 80 Booktabs Verbatim) d_comprehensive_test_table_booktabs_doc) (lit "\toprule") = true.
Proof. vm_compute. reflexivity. Qed.
Example l_comprehensive_test_table_booktabs_3 : contains (latex (LatexConfig 80 Booktabs Verbatim) d_comprehensive_test_table_booktabs_doc) (lit "\midrule") = true.
Proof. vm_compute. reflexivity. Qed.
Example l_comprehensive_test_table_booktabs_4 : contains (latex (LatexConfig 80 Booktabs Verbatim) d_comprehensive_test_table_booktabs_doc) (lit "\bottomrule") = true.
Proof. vm_compute. reflexivity. Qed.
Example l_comprehensive_test_table_booktabs_5 : contains (latex (LatexConfig 80 Booktabs Verbatim) d_comprehensive_test_table_booktabs_doc) (lit "\begin{tabular}[lc]") = true.
Proof. vm_compute. reflexivity. Qed.
Definition d_comprehensive_test_nested_elements_doc : document :=
  (Document [(BBlockQuote [(BParagraph [(IText (lit "Quote paragraph"))]); (BList (MkList (Bullet Dash) [(ListItem None [(BParagraph [(IText (lit "Item with ")); (IStrong [(IText (lit "bold"))]); (IText (lit " text"))])])]))]); (BList (MkList (Ordered 5%N) [(ListItem (Some Incomplete) [(BParagraph [(IText (lit "Multi-block item"))]); (BCodeBlock (CodeBlock (Fenced (Some (lit "bash"))) (lit "echo 'nested code'")))])]))]).
Example l_comprehensive_test_nested_elements_2 : contains (latex (LatexConfig 80 Tabular Verbatim) d_comprehensive_test_nested_elements_doc) (lit "\begin{quote}") = true.
Proof. vm_compute. reflexivity. Qed.
Example l_comprehensive_test_nested_elements_3 : contains (latex (LatexConfig 80 Tabular Verbatim) d_comprehensive_test_nested_elements_doc) (lit "\begin{itemize}") = true.
Proof. vm_compute. reflexivity. Qed.
Example l_comprehensive_test_nested_elements_4 : contains (latex (LatexConfig 80 Tabular Verbatim) d_comprehensive_test_nested_elements_doc) (lit "\begin{enumerate}") = true.
Proof. vm_compute. reflexivity. Qed.
Example l_comprehensive_test_nested_elements_5 : contains (latex (LatexConfig 80 Tabular Verbatim) d_comprehensive_test_nested_elements_doc) (lit "\textbf{bold}") = true.
Proof. vm_compute. reflexivity. Qed.
Example l_comprehensive_test_nested_elements_6 : contains (latex (LatexConfig 80 Tabular Verbatim) d_comprehensive_test_nested_elements_doc) (lit "$\square$") = true.
Proof. vm_compute. reflexivity. Qed.
Example l_comprehensive_test_nested_elements_7 : contains (latex (LatexConfig 80 Tabular Verbatim) d_comprehensive_test_nested_elements_doc) (lit "\begin{verbatim}") = true.
Proof. vm_compute. reflexivity. Qed.
Example l_comprehensive_test_nested_elements_8 : contains (latex (LatexConfig 80 Tabular Verbatim) d_comprehensive_test_nested_elements_doc) (lit "echo 'nested code'") = true.
Proof. vm_compute. reflexivity. Qed.
Definition d_comprehensive_test_complex_inline_combinations_doc : document :=
  (Document [(BParagraph [(IText (lit "This is ")); (IStrong [(IText (lit "bold with ")); (IEmphasis [(IText (lit "italic"))]); (IText (lit " inside"))]); (IText (lit " and ")); (IStrikethrough [(IText (lit "struck ")); (ICode (lit "code"))]); (IText (lit " text."))])]).
Example l_comprehensive_test_complex_inline_combinations_2 : contains (latex (LatexConfig 80 Tabular Verbatim) d_comprehensive_test_complex_inline_combinations_doc) (lit "\textbf{bold with \textit{italic} inside}") = true.
Proof. vm_compute. reflexivity. Qed.
Definition d_config_combinations_test_all_table_styles_doc : document :=
  (Document [(BTable (Table [[[(IText (lit "H1"))]; [(IText (lit "H2"))]]; [[(IText (lit "R1C1"))]; [(IText (lit "R1C2"))]]] [ALeft; ACenter]))]).
Example l_config_combinations_test_all_table_styles_2 : contains (latex (LatexConfig 80 Tabular Verbatim) d_config_combinations_test_all_table_styles_doc) (lit "\begin{tabular}[lc]") = true.
Proof. vm_compute. reflexivity. Qed.
Example l_config_combinations_test_all_table_styles_3 : contains (latex (LatexConfig 80 Tabular Verbatim) d_config_combinations_test_all_table_styles_doc) (lit "\hline") = true.
Proof. vm_compute. reflexivity. Qed.
Example l_config_combinations_test_all_table_styles_4 : contains (latex (LatexConfig 80 Tabular Verbatim) d_config_combinations_test_all_table_styles_doc) (lit "\toprule") = false.
Proof. vm_compute. reflexivity. Qed.
Example l_config_combinations_test_all_table_styles_5 : contains (latex (LatexConfig 80 Longtabu Verbatim) d_config_combinations_test_all_table_styles_doc) (lit "\begin{longtabu}") = true.
Proof. vm_compute. reflexivity. Qed.
Example l_config_combinations_test_all_table_styles_6 : contains (latex (LatexConfig 80 Longtabu Verbatim) d_config_combinations_test_all_table_styles_doc) (lit "X[l] to \textwidth") = true.
Proof. vm_compute. reflexivity. Qed.
Example l_config_combinations_test_all_table_styles_7 : contains (latex (LatexConfig 80 Booktabs Verbatim) d_config_combinations_test_all_table_styles_doc) (lit "\toprule") = true.
Proof. vm_compute. reflexivity. Qed.
Example l_config_combinations_test_all_table_styles_8 : contains (latex (LatexConfig 80 Booktabs Verbatim) d_config_combinations_test_all_table_styles_doc) (lit "\midrule") = true.
Proof. vm_compute. reflexivity. Qed.
Example l_config_combinations_test_all_table_styles_9 : contains (latex (LatexConfig 80 Booktabs Verbatim) d_config_combinations_test_all_table_styles_doc) (lit "\bottomrule") = true.
Proof. vm_compute. reflexivity. Qed.
Example l_config_combinations_test_all_table_styles_10 : contains (latex (LatexConfig 80 Booktabs Verbatim) d_config_combinations_test_all_table_styles_doc) (lit "\hline") = false.
Proof. vm_compute. reflexivity. Qed.
Definition d_config_combinations_test_all_code_block_styles_doc : document :=
  (Document [(BCodeBlock (CodeBlock (Fenced (Some (lit "python"))) (lit "print('hello world')")))]).
Example l_config_combinations_test_all_code_block_styles_2 : contains (latex (LatexConfig 80 Tabular Verbatim) d_config_combinations_test_all_code_block_styles_doc) (lit "\begin{verbatim}") = true.
Proof. vm_compute. reflexivity. Qed.
Example l_config_combinations_test_all_code_block_styles_3 : contains (latex (LatexConfig 80 Tabular Verbatim) d_config_combinations_test_all_code_block_styles_doc) (lit "language=") = false.
Proof. vm_compute. reflexivity. Qed.
Example l_config_combinations_test_all_code_block_styles_4 : contains (latex (LatexConfig 80 Tabular Verbatim) d_config_combinations_test_all_code_block_styles_doc) (lit "\begin{minted}") = false.
Proof. vm_compute. reflexivity. Qed.
Example l_config_combinations_test_all_code_block_styles_5 : contains (latex (LatexConfig 80 Tabular Listings) d_config_combinations_test_all_code_block_styles_doc) (lit "\begin{lstlisting}[language=python]") = true.
Proof. vm_compute. reflexivity. Qed.
Example l_config_combinations_test_all_code_block_styles_6 : contains (latex (LatexConfig 80 Tabular Listings) d_config_combinations_test_all_code_block_styles_doc) (lit "\begin{verbatim}") = false.
Proof. vm_compute. reflexivity. Qed.
Example l_config_combinations_test_all_code_block_styles_7 : contains (latex (LatexConfig 80 Tabular Listings) d_config_combinations_test_all_code_block_styles_doc) (lit "\begin{minted}") = false.
Proof. vm_compute. reflexivity. Qed.
Example l_config_combinations_test_all_code_block_styles_8 : contains (latex (LatexConfig 80 Tabular Minted) d_config_combinations_test_all_code_block_styles_doc) (lit "\begin{minted}{python}") = true.
Proof. vm_compute. reflexivity. Qed.
Example l_config_combinations_test_all_code_block_styles_9 : contains (latex (LatexConfig 80 Tabular Minted) d_config_combinations_test_all_code_block_styles_doc) (lit "\begin{verbatim}") = false.
Proof. vm_compute. reflexivity. Qed.
Example l_config_combinations_test_all_code_block_styles_10 : contains (latex (LatexConfig 80 Tabular Minted) d_config_combinations_test_all_code_block_styles_doc) (lit "\begin{lstlisting}") = false.
Proof. vm_compute. reflexivity. Qed.
Definition d_config_combinations_test_code_block_without_language_doc : document :=
  (Document [(BCodeBlock (CodeBlock (Fenced None) (lit "echo 'no language'")))]).
Example l_config_combinations_test_code_block_without_language_2 : contains (latex (LatexConfig 80 Tabular Verbatim) d_config_combinations_test_code_block_without_language_doc) (lit "\begin{verbatim}") = true.
Proof. vm_compute. reflexivity. Qed.
Example l_config_combinations_test_code_block_without_language_3 : contains (latex (LatexConfig 80 Tabular Listings) d_config_combinations_test_code_block_without_language_doc) (lit "\begin{lstlisting}") = true.
Proof. vm_compute. reflexivity. Qed.
Example l_config_combinations_test_code_block_without_language_4 : contains (latex (LatexConfig 80 Tabular Listings) d_config_combinations_test_code_block_without_language_doc) (lit "language=") = false.
Proof. vm_compute. reflexivity. Qed.
Example l_config_combinations_test_code_block_without_language_5 : contains (latex (LatexConfig 80 Tabular Minted) d_config_combinations_test_code_block_without_language_doc) (lit "\begin{minted}{text}") = true.
Proof. vm_compute. reflexivity. Qed.
Definition d_config_combinations_test_config_combinations_doc : document :=
  (Document [(BTable (Table [[[(IText (lit "Table"))]]; [[(IText (lit "Data"))]]] [ACenter])); (BCodeBlock (CodeBlock (Fenced (Some (lit "rust"))) (lit "fn main() {}")))]).
Definition d_config_combinations_test_config_builder_pattern_doc : document :=
  (Document [(BParagraph [(IText (lit "Test"))])]).
Example l_config_combinations_test_config_builder_pattern_2 : contains (latex (LatexConfig 60 Booktabs Minted) d_config_combinations_test_config_builder_pattern_doc) (lit "Test") = true.
Proof. vm_compute. reflexivity. Qed.
Definition d_config_combinations_test_config_builder_pattern_complex_doc : document :=
  (Document [(BTable (Table [[[(IText (lit "H"))]]] [ALeft])); (BCodeBlock (CodeBlock (Fenced (Some (lit "python"))) (lit "pass")))]).
Example l_config_combinations_test_config_builder_pattern_4 : contains (latex (LatexConfig 80 Booktabs Minted) d_config_combinations_test_config_builder_pattern_complex_doc) (lit "\toprule") = true.
Proof. vm_compute. reflexivity. Qed.
Example l_config_combinations_test_config_builder_pattern_5 : contains (latex (LatexConfig 80 Booktabs Minted) d_config_combinations_test_config_builder_pattern_complex_doc) (lit "\begin{minted}{python}") = true.
Proof. vm_compute. reflexivity. Qed.
Definition d_config_combinations_test_default_config_doc : document :=
  (Document [(BTable (Table [[[(IText (lit "Test"))]]] [ALeft])); (BCodeBlock (CodeBlock (Fenced (Some (lit "rust"))) (lit "test")))]).
Example l_config_combinations_test_default_config_2 : contains (latex (LatexConfig 80 Tabular Verbatim) d_config_combinations_test_default_config_doc) (lit "\begin{tabular}") = true.
Proof. vm_compute. reflexivity. Qed.
Example l_config_combinations_test_default_config_3 : contains (latex (LatexConfig 80 Tabular Verbatim) d_config_combinations_test_default_config_doc) (lit "\begin{verbatim}") = true.
Proof. vm_compute. reflexivity. Qed.
Example l_config_combinations_test_default_config_4 : contains (latex (LatexConfig 80 Tabular Verbatim) d_config_combinations_test_default_config_doc) (lit "\toprule") = false.
Proof. vm_compute. reflexivity. Qed.
Example l_config_combinations_test_default_config_5 : contains (latex (LatexConfig 80 Tabular Verbatim) d_config_combinations_test_default_config_doc) (lit "\begin{lstlisting}") = false.
Proof. vm_compute. reflexivity. Qed.
Example l_config_combinations_test_default_config_6 : contains (latex (LatexConfig 80 Tabular Verbatim) d_config_combinations_test_default_config_doc) (lit "\begin{minted}") = false.
Proof. vm_compute. reflexivity. Qed.
Definition d_config_combinations_test_mixed_content_with_different_configs_doc : document :=
  (Document [(BHeading (Heading (Atx 1%N) [(IText (lit "Document Title"))])); (BParagraph [(IText (lit "This document contains a ")); (IStrong [(IText (lit "table"))]); (IText (lit " and a ")); (IEmphasis [(IText (lit "code block"))]); (IText (lit "."))]); (BTable (Table [[[(IText (lit "Feature"))]; [(IText (lit "Status"))]]; [[(IText (lit "Tables"))]; [(IText ([10003%N]))]]] [ALeft; ACenter])); (BCodeBlock (CodeBlock (Fenced (Some (lit "rust"))) (lit "fn render_latex() -> String {
    // Implementation
}"))); (BList (MkList (Bullet Star) [(ListItem (Some Complete) [(BParagraph [(IText (lit "LaTeX printer implemented"))])]); (ListItem (Some Incomplete) [(BParagraph [(IText (lit "Documentation updated"))])])]))]).
Definition d_edge_cases_test_empty_document_doc : document :=
  (Document []).
Example l_edge_cases_test_empty_document_2 : trim (latex (LatexConfig 80 Tabular Verbatim) d_edge_cases_test_empty_document_doc) = [].
Proof. vm_compute. reflexivity. Qed.
Definition d_edge_cases_test_empty_paragraph_doc : document :=
  (Document [(BParagraph [])]).
Example l_edge_cases_test_empty_paragraph_2 : trim (latex (LatexConfig 80 Tabular Verbatim) d_edge_cases_test_empty_paragraph_doc) = [].
Proof. vm_compute. reflexivity. Qed.
Definition d_edge_cases_test_empty_heading_doc : document :=
  (Document [(BHeading (Heading (Atx 1%N) []))]).
Example l_edge_cases_test_empty_heading_2 : contains (latex (LatexConfig 80 Tabular Verbatim) d_edge_cases_test_empty_heading_doc) (lit "\section{}") = true.
Proof. vm_compute. reflexivity. Qed.
Definition d_edge_cases_test_empty_emphasis_doc : document :=
  (Document [(BParagraph [(IText (lit "Text with ")); (IEmphasis []); (IText (lit " empty emphasis."))])]).
Example l_edge_cases_test_empty_emphasis_2 : contains (latex (LatexConfig 80 Tabular Verbatim) d_edge_cases_test_empty_emphasis_doc) (lit "\textit{}") = true.
Proof. vm_compute. reflexivity. Qed.
Definition d_edge_cases_test_empty_list_doc : document :=
  (Document [(BList (MkList (Bullet Star) []))]).
Example l_edge_cases_test_empty_list_2 : contains (latex (LatexConfig 80 Tabular Verbatim) d_edge_cases_test_empty_list_doc) (lit "\begin{itemize}") = true.
Proof. vm_compute. reflexivity. Qed.
Example l_edge_cases_test_empty_list_3 : contains (latex (LatexConfig 80 Tabular Verbatim) d_edge_cases_test_empty_list_doc) (lit "\end{itemize}") = true.
Proof. vm_compute. reflexivity. Qed.
Definition d_edge_cases_test_empty_list_item_doc : document :=
  (Document [(BList (MkList (Bullet Star) [(ListItem None [])]))]).
Example l_edge_cases_test_empty_list_item_2 : contains (latex (LatexConfig 80 Tabular Verbatim) d_edge_cases_test_empty_list_item_doc) (lit "\item") = true.
Proof. vm_compute. reflexivity. Qed.
Definition d_edge_cases_test_empty_table_doc : document :=
  (Document [(BTable (Table [] []))]).
Example l_edge_cases_test_empty_table_2 : contains (latex (LatexConfig 80 Tabular Verbatim) d_edge_cases_test_empty_table_doc) (lit "\begin{tabular}") = true.
Proof. vm_compute. reflexivity. Qed.
Definition d_edge_cases_test_empty_table_row_doc : document :=
  (Document [(BTable (Table [[]] []))]).
Example l_edge_cases_test_empty_table_row_2 : contains (latex (LatexConfig 80 Tabular Verbatim) d_edge_cases_test_empty_table_row_doc) (lit "\\") = true.
Proof. vm_compute. reflexivity. Qed.
Definition d_edge_cases_test_empty_table_cell_doc : document :=
  (Document [(BTable (Table [[[]]] [ALeft]))]).
Example l_edge_cases_test_empty_table_cell_2 : contains (latex (LatexConfig 80 Tabular Verbatim) d_edge_cases_test_empty_table_cell_doc) (lit "\\") = true.
Proof. vm_compute. reflexivity. Qed.
Definition d_edge_cases_test_empty_code_block_doc : document :=
  (Document [(BCodeBlock (CodeBlock (Fenced None) []))]).
Example l_edge_cases_test_empty_code_block_2 : contains (latex (LatexConfig 80 Tabular Verbatim) d_edge_cases_test_empty_code_block_doc) (lit "\begin{verbatim}") = true.
Proof. vm_compute. reflexivity. Qed.
Example l_edge_cases_test_empty_code_block_3 : contains (latex (LatexConfig 80 Tabular Verbatim) d_edge_cases_test_empty_code_block_doc) (lit "\end{verbatim}") = true.
Proof. vm_compute. reflexivity. Qed.
Definition d_edge_cases_test_empty_blockquote_doc : document :=
  (Document [(BBlockQuote [])]).
Example l_edge_cases_test_empty_blockquote_2 : contains (latex (LatexConfig 80 Tabular Verbatim) d_edge_cases_test_empty_blockquote_doc) (lit "\begin{quote}") = true.
Proof. vm_compute. reflexivity. Qed.
Example l_edge_cases_test_empty_blockquote_3 : contains (latex (LatexConfig 80 Tabular Verbatim) d_edge_cases_test_empty_blockquote_doc) (lit "\end{quote}") = true.
Proof. vm_compute. reflexivity. Qed.
Definition d_edge_cases_test_whitespace_only_text_doc : document :=
  (Document [(BParagraph [(IText (lit "   ")); (IText ([9%N] ++ lit "
"))])]).
Example l_edge_cases_test_whitespace_only_text_2 : contains (latex (LatexConfig 80 Tabular Verbatim) d_edge_cases_test_whitespace_only_text_doc) (lit "   ") = true.
Proof. vm_compute. reflexivity. Qed.
Example l_edge_cases_test_whitespace_only_text_3 : contains (latex (LatexConfig 80 Tabular Verbatim) d_edge_cases_test_whitespace_only_text_doc) ([9%N] ++ lit " ") = true.
Proof. vm_compute. reflexivity. Qed.
Definition d_edge_cases_test_special_chars_in_urls_doc : document :=
  (Document [(BParagraph [(ILink (Link (lit "https://example.com/path?q=a&b=c#fragment") None [(IText (lit "link"))]))])]).
Example l_edge_cases_test_special_chars_in_urls_2 : contains (latex (LatexConfig 80 Tabular Verbatim) d_edge_cases_test_special_chars_in_urls_doc) (lit "\href") = true.
Proof. vm_compute. reflexivity. Qed.
Example l_edge_cases_test_special_chars_in_urls_3 : contains (latex (LatexConfig 80 Tabular Verbatim) d_edge_cases_test_special_chars_in_urls_doc) (lit "https://example.com/path?q=a\&b=c\#fragment") = true.
Proof. vm_compute. reflexivity. Qed.
Definition d_edge_cases_test_special_chars_in_code_doc : document :=
  (Document [(BParagraph [(ICode (lit "$ & % # ^ _ { } ~ \"))])]).
Example l_edge_cases_test_special_chars_in_code_2 : contains (latex (LatexConfig 80 Tabular Verbatim) d_edge_cases_test_special_chars_in_code_doc) (lit "\texttt{\$ \& \% \# \textasciicircum{} \_ \{ \} \textasciitilde{} \textbackslash{}}") = true.
Proof. vm_compute. reflexivity. Qed.
Definition d_edge_cases_test_unicode_characters_doc : document :=
  (Document [(BParagraph [(IText (lit "Unicode: " ++ [945%N; 946%N; 947%N] ++ lit " " ++ [20013%N; 25991%N] ++ lit " " ++ [128640%N] ++ lit " " ++ [241%N; 225%N; 233%N; 237%N; 243%N; 250%N]))])]).
Example l_edge_cases_test_unicode_characters_2 : contains (latex (LatexConfig 80 Tabular Verbatim) d_edge_cases_test_unicode_characters_doc) (lit "Unicode: " ++ [945%N; 946%N; 947%N] ++ lit " " ++ [20013%N; 25991%N] ++ lit " " ++ [128640%N] ++ lit " " ++ [241%N; 225%N; 233%N; 237%N; 243%N; 250%N]) = true.
Proof. vm_compute. reflexivity. Qed.
Definition d_edge_cases_test_table_with_complex_cells_doc : document :=
  (Document [(BTable (Table [[[(IStrong [(IText (lit "Bold Header"))])]; [(IEmphasis [(IText (lit "Italic Header"))])]]; [[(IText (lit "Cell with ")); (ICode (lit "code")); (IText (lit " and ")); (ILink (Link (lit "https://example.com") None [(IText (lit "link"))]))]; [(IStrikethrough [(IText (lit "crossed"))]); ILineBreak; (IText (lit "multiline"))]]] [ALeft; ARight]))]).
Example l_edge_cases_test_table_with_complex_cells_2 : contains (latex (LatexConfig 80 Tabular Verbatim) d_edge_cases_test_table_with_complex_cells_doc) (lit "\textbf{Bold Header}") = true.
Proof. vm_compute. reflexivity. Qed.
Example l_edge_cases_test_table_with_complex_cells_3 : contains (latex (LatexConfig 80 Tabular Verbatim) d_edge_cases_test_table_with_complex_cells_doc) (lit "\textit{Italic Header}") = true.
Proof. vm_compute. reflexivity. Qed.
Example l_edge_cases_test_table_with_complex_cells_4 : contains (latex (LatexConfig 80 Tabular Verbatim) d_edge_cases_test_table_with_complex_cells_doc) (lit "\texttt{code}") = true.
Proof. vm_compute. reflexivity. Qed.
Example l_edge_cases_test_table_with_complex_cells_5 : contains (latex (LatexConfig 80 Tabular Verbatim) d_edge_cases_test_table_with_complex_cells_doc) (lit "\href") = true.
Proof. vm_compute. reflexivity. Qed.
Example l_edge_cases_test_table_with_complex_cells_6 : contains (latex (LatexConfig 80 Tabular Verbatim) d_edge_cases_test_table_with_complex_cells_doc) (lit "\sout{crossed}") = true.
Proof. vm_compute. reflexivity. Qed.
Example l_edge_cases_test_table_with_complex_cells_7 : contains (latex (LatexConfig 80 Tabular Verbatim) d_edge_cases_test_table_with_complex_cells_doc) (lit "\\") = true.
Proof. vm_compute. reflexivity. Qed.
Definition d_edge_cases_test_task_list_states_doc : document :=
  (Document [(BList (MkList (Bullet Plus) [(ListItem (Some Complete) [(BParagraph [(IText (lit "Completed task"))])]); (ListItem (Some Incomplete) [(BParagraph [(IText (lit "Incomplete task"))])]); (ListItem None [(BParagraph [(IText (lit "Regular item"))])])]))]).
Example l_edge_cases_test_task_list_states_2 : contains (latex (LatexConfig 80 Tabular Verbatim) d_edge_cases_test_task_list_states_doc) (lit "$\boxtimes$ Completed task") = true.
Proof. vm_compute. reflexivity. Qed.
Example l_edge_cases_test_task_list_states_3 : contains (latex (LatexConfig 80 Tabular Verbatim) d_edge_cases_test_task_list_states_doc) (lit "$\square$ Incomplete task") = true.
Proof. vm_compute. reflexivity. Qed.
Example l_edge_cases_test_task_list_states_4 : contains (latex (LatexConfig 80 Tabular Verbatim) d_edge_cases_test_task_list_states_doc) (lit "\item Regular item") = true.
Proof. vm_compute. reflexivity. Qed.
Definition d_edge_cases_test_ordered_list_with_custom_start_doc : document :=
  (Document [(BList (MkList (Ordered 42%N) [(ListItem None [(BParagraph [(IText (lit "First"))])]); (ListItem None [(BParagraph [(IText (lit "Second"))])])]))]).
Example l_edge_cases_test_ordered_list_with_custom_start_2 : contains (latex (LatexConfig 80 Tabular Verbatim) d_edge_cases_test_ordered_list_with_custom_start_doc) (lit "\begin{enumerate}") = true.
Proof. vm_compute. reflexivity. Qed.
Example l_edge_cases_test_ordered_list_with_custom_start_3 : contains (latex (LatexConfig 80 Tabular Verbatim) d_edge_cases_test_ordered_list_with_custom_start_doc) (lit "\item First") = true.
Proof. vm_compute. reflexivity. Qed.
Example l_edge_cases_test_ordered_list_with_custom_start_4 : contains (latex (LatexConfig 80 Tabular Verbatim) d_edge_cases_test_ordered_list_with_custom_start_doc) (lit "\item Second") = true.
Proof. vm_compute. reflexivity. Qed.
Definition d_edge_cases_test_table_alignment_edge_cases_doc : document :=
  (Document [(BTable (Table [[[(IText (lit "A"))]; [(IText (lit "B"))]; [(IText (lit "C"))]]] [ANone; ALeft]))]).
Example l_edge_cases_test_table_alignment_edge_cases_2 : contains (latex (LatexConfig 80 Tabular Verbatim) d_edge_cases_test_table_alignment_edge_cases_doc) (lit "\begin{tabular}[ll]") = true.
Proof. vm_compute. reflexivity. Qed.
Definition d_mod_test_simple_paragraph_doc : document :=
  (Document [(BParagraph [(IText (lit "Hello, world!"))])]).
Example l_mod_test_simple_paragraph_2 : trim (latex (LatexConfig 80 Tabular Verbatim) d_mod_test_simple_paragraph_doc) = (lit "Hello, world!").
Proof. vm_compute. reflexivity. Qed.
Definition d_mod_test_latex_escaping_doc : document :=
  (Document [(BParagraph [(IText (lit "Special chars: $ & % # ^ _ { } ~ \"))])]).
Example l_mod_test_latex_escaping_2 : contains (latex (LatexConfig 80 Tabular Verbatim) d_mod_test_latex_escaping_doc) (lit "\$") = true.
Proof. vm_compute. reflexivity. Qed.
Example l_mod_test_latex_escaping_3 : contains (latex (LatexConfig 80 Tabular Verbatim) d_mod_test_latex_escaping_doc) (lit "\&") = true.
Proof. vm_compute. reflexivity. Qed.
Example l_mod_test_latex_escaping_4 : contains (latex (LatexConfig 80 Tabular Verbatim) d_mod_test_latex_escaping_doc) (lit "\%") = true.
Proof. vm_compute. reflexivity. Qed.
Example l_mod_test_latex_escaping_5 : contains (latex (LatexConfig 80 Tabular Verbatim) d_mod_test_latex_escaping_doc) (lit "\#") = true.
Proof. vm_compute. reflexivity. Qed.
Example l_mod_test_latex_escaping_6 : contains (latex (LatexConfig 80 Tabular Verbatim) d_mod_test_latex_escaping_doc) (lit "\textasciicircum{}") = true.
Proof. vm_compute. reflexivity. Qed.
Example l_mod_test_latex_escaping_7 : contains (latex (LatexConfig 80 Tabular Verbatim) d_mod_test_latex_escaping_doc) (lit "\_") = true.
Proof. vm_compute. reflexivity. Qed.
Example l_mod_test_latex_escaping_8 : contains (latex (LatexConfig 80 Tabular Verbatim) d_mod_test_latex_escaping_doc) (lit "\{") = true.
Proof. vm_compute. reflexivity. Qed.
Example l_mod_test_latex_escaping_9 : contains (latex (LatexConfig 80 Tabular Verbatim) d_mod_test_latex_escaping_doc) (lit "\}") = true.
Proof. vm_compute. reflexivity. Qed.
Example l_mod_test_latex_escaping_10 : contains (latex (LatexConfig 80 Tabular Verbatim) d_mod_test_latex_escaping_doc) (lit "\textasciitilde{}") = true.
Proof. vm_compute. reflexivity. Qed.
Example l_mod_test_latex_escaping_11 : contains (latex (LatexConfig 80 Tabular Verbatim) d_mod_test_latex_escaping_doc) (lit "\textbackslash{}") = true.
Proof. vm_compute. reflexivity. Qed.
Definition d_mod_test_headings_doc : document :=
  (Document [(BHeading (Heading (Atx 1%N) [(IText (lit "Level 1"))])); (BHeading (Heading (Atx 2%N) [(IText (lit "Level 2"))])); (BHeading (Heading (Setext Level1) [(IText (lit "Setext 1"))]))]).
Example l_mod_test_headings_2 : contains (latex (LatexConfig 80 Tabular Verbatim) d_mod_test_headings_doc) (lit "\section{Level 1}") = true.
Proof. vm_compute. reflexivity. Qed.
Example l_mod_test_headings_3 : contains (latex (LatexConfig 80 Tabular Verbatim) d_mod_test_headings_doc) (lit "\subsection{Level 2}") = true.
Proof. vm_compute. reflexivity. Qed.
Example l_mod_test_headings_4 : contains (latex (LatexConfig 80 Tabular Verbatim) d_mod_test_headings_doc) (lit "\section{Setext 1}") = true.
Proof. vm_compute. reflexivity. Qed.
Definition d_mod_test_emphasis_doc : document :=
  (Document [(BParagraph [(IText (lit "Normal ")); (IEmphasis [(IText (lit "italic"))]); (IText (lit " and ")); (IStrong [(IText (lit "bold"))]); (IText (lit " text."))])]).
Example l_mod_test_emphasis_2 : contains (latex (LatexConfig 80 Tabular Verbatim) d_mod_test_emphasis_doc) (lit "\textit{italic}") = true.
Proof. vm_compute. reflexivity. Qed.
Example l_mod_test_emphasis_3 : contains (latex (LatexConfig 80 Tabular Verbatim) d_mod_test_emphasis_doc) (lit "\textbf{bold}") = true.
Proof. vm_compute. reflexivity. Qed.
Definition d_mod_test_code_block_verbatim_doc : document :=
  (Document [(BCodeBlock (CodeBlock (Fenced (Some (lit "rust"))) (lit "fn main() {
    println!(""Hello!"");
}")))]).
Example l_mod_test_code_block_verbatim_2 : contains (latex (LatexConfig 80 Tabular Verbatim) d_mod_test_code_block_verbatim_doc) (lit "\begin{verbatim}") = true.
Proof. vm_compute. reflexivity. Qed.
Example l_mod_test_code_block_verbatim_3 : contains (latex (LatexConfig 80 Tabular Verbatim) d_mod_test_code_block_verbatim_doc) (lit "\end{verbatim}") = true.
Proof. vm_compute. reflexivity. Qed.
Example l_mod_test_code_block_verbatim_4 : contains (latex (LatexConfig 80 Tabular Verbatim) d_mod_test_code_block_verbatim_doc) (lit "fn main()") = true.
Proof. vm_compute. reflexivity. Qed.
Definition d_mod_test_code_block_listings_doc : document :=
  (Document [(BCodeBlock (CodeBlock (Fenced (Some (lit "python"))) (lit "print('Hello, world!')")))]).
Example l_mod_test_code_block_listings_2 : contains (latex (LatexConfig 80 Tabular Listings) d_mod_test_code_block_listings_doc) (lit "\begin{lstlisting}[language=python]") = true.
Proof. vm_compute. reflexivity. Qed.
Example l_mod_test_code_block_listings_3 : contains (latex (LatexConfig 80 Tabular Listings) d_mod_test_code_block_listings_doc) (lit "\end{lstlisting}") = true.
Proof. vm_compute. reflexivity. Qed.
Definition d_mod_test_code_block_minted_doc : document :=
  (Document [(BCodeBlock (CodeBlock (Fenced (Some (lit "javascript"))) (lit "console.log('Hello!');")))]).
Example l_mod_test_code_block_minted_2 : contains (latex (LatexConfig 80 Tabular Minted) d_mod_test_code_block_minted_doc) (lit "\begin{minted}{javascript}") = true.
Proof. vm_compute. reflexivity. Qed.
Example l_mod_test_code_block_minted_3 : contains (latex (LatexConfig 80 Tabular Minted) d_mod_test_code_block_minted_doc) (lit "\end{minted}") = true.
Proof. vm_compute. reflexivity. Qed.
Definition d_mod_test_lists_doc : document :=
  (Document [(BList (MkList (Bullet Star) [(ListItem None [(BParagraph [(IText (lit "Item 1"))])]); (ListItem (Some Complete) [(BParagraph [(IText (lit "Done item"))])])])); (BList (MkList (Ordered 1%N) [(ListItem None [(BParagraph [(IText (lit "Numbered"))])])]))]).
Example l_mod_test_lists_2 : contains (latex (LatexConfig 80 Tabular Verbatim) d_mod_test_lists_doc) (lit "\begin{itemize}") = true.
Proof. vm_compute. reflexivity. Qed.
Example l_mod_test_lists_3 : contains (latex (LatexConfig 80 Tabular Verbatim) d_mod_test_lists_doc) (lit "\begin{enumerate}") = true.
Proof. vm_compute. reflexivity. Qed.
Example l_mod_test_lists_4 : contains (latex (LatexConfig 80 Tabular Verbatim) d_mod_test_lists_doc) (lit "\item Item 1") = true.
Proof. vm_compute. reflexivity. Qed.
Example l_mod_test_lists_5 : contains (latex (LatexConfig 80 Tabular Verbatim) d_mod_test_lists_doc) (lit "$\boxtimes$") = true.
Proof. vm_compute. reflexivity. Qed.
Definition d_mod_test_table_tabular_doc : document :=
  (Document [(BTable (Table [[[(IText (lit "Header 1"))]; [(IText (lit "Header 2"))]]; [[(IText (lit "Cell 1"))]; [(IText (lit "Cell 2"))]]] [ALeft; ARight]))]).
Example l_mod_test_table_tabular_2 : contains (latex (LatexConfig 80 Tabular Verbatim) d_mod_test_table_tabular_doc) (lit "\begin{tabular}[lr]") = true.
Proof. vm_compute. reflexivity. Qed.
Example l_mod_test_table_tabular_3 : contains (latex (LatexConfig 80 Tabular Verbatim) d_mod_test_table_tabular_doc) (lit "Header 1") = true.
Proof. vm_compute. reflexivity. Qed.
Example l_mod_test_table_tabular_4 : contains (latex (LatexConfig 80 Tabular Verbatim) d_mod_test_table_tabular_doc) (lit "Cell 1 & Cell 2") = true.
Proof. vm_compute. reflexivity. Qed.
Example l_mod_test_table_tabular_5 : contains (latex (LatexConfig 80 Tabular Verbatim) d_mod_test_table_tabular_doc) (lit "\\") = true.
Proof. vm_compute. reflexivity. Qed.
Definition d_mod_test_blockquote_doc : document :=
  (Document [(BBlockQuote [(BParagraph [(IText (lit "This is a quote."))])])]).
Example l_mod_test_blockquote_2 : contains (latex (LatexConfig 80 Tabular Verbatim) d_mod_test_blockquote_doc) (lit "\begin{quote}") = true.
Proof. vm_compute. reflexivity. Qed.
Example l_mod_test_blockquote_3 : contains (latex (LatexConfig 80 Tabular Verbatim) d_mod_test_blockquote_doc) (lit "This is a quote.") = true.
Proof. vm_compute. reflexivity. Qed.
Example l_mod_test_blockquote_4 : contains (latex (LatexConfig 80 Tabular Verbatim) d_mod_test_blockquote_doc) (lit "\end{quote}") = true.
Proof. vm_compute. reflexivity. Qed.
Definition d_mod_test_links_doc : document :=
  (Document [(BParagraph [(IText (lit "Visit ")); (ILink (Link (lit "https://example.com") (Some (lit "Example Site")) [(IText (lit "this link"))])); (IText (lit "."))])]).
Example l_mod_test_links_2 : contains (latex (LatexConfig 80 Tabular Verbatim) d_mod_test_links_doc) (lit "\href") = true.
Proof. vm_compute. reflexivity. Qed.
Example l_mod_test_links_3 : contains (latex (LatexConfig 80 Tabular Verbatim) d_mod_test_links_doc) (lit "https://example.com") = true.
Proof. vm_compute. reflexivity. Qed.
Example l_mod_test_links_4 : contains (latex (LatexConfig 80 Tabular Verbatim) d_mod_test_links_doc) (lit "this link") = true.
Proof. vm_compute. reflexivity. Qed.
Example l_mod_test_links_5 : contains (latex (LatexConfig 80 Tabular Verbatim) d_mod_test_links_doc) (lit "\footnote") = true.
Proof. vm_compute. reflexivity. Qed.
Definition d_mod_test_config_width_doc : document :=
  (Document [(BParagraph [(IText (lit "This is a very long line that should be wrapped at the specified width limit and it contains many words that exceed forty characters"))])]).
Definition d_mod_test_width_works_for_complex_content_doc : document :=
  (Document [(BParagraph [(IText (lit "Start ")); (IStrong [(IText (lit "bold very long text that should wrap"))]); (IText (lit " middle ")); (IEmphasis [(IText (lit "italic very long text that should also wrap"))]); (IText (lit " end"))])]).
Definition d_mod_test_code_blocks_no_wrapping_doc : document :=
  (Document [(BParagraph [(IText (lit "This is a much longer text before the code block that should definitely wrap on narrow width settings because it contains many words and exceeds thirty characters")); (ICode (lit "this is a very long code snippet with spaces that should not wrap regardless of width setting")); (IText (lit " and this is also a longer text after the code block that should wrap"))])]).
