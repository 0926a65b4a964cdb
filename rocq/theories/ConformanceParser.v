(** Generated by tools/conformance.py from the parser unit tests of the
    repository (src/parser/*/tests/*.rs): the model computes the documents
    the tests expect.  Validation of the model, not proofs of properties. *)
From Coq Require Import String.
From Verif Require Import ParserBlock.
Import ListNotations.
Open Scope list_scope.

Definition test_entities (s : str) : option str :=
  if str_eqb s (lit "&amp;") then Some (lit "&") else if str_eqb s (lit "&lt;") then Some (lit "<")
  else if str_eqb s (lit "&gt;") then Some (lit ">") else if str_eqb s (lit "&copy;") then Some [169%N]
  else if str_eqb s (lit "&nbsp;") then Some [160%N] else None.
Definition with_b_blockquote b (c : config) : config :=
  Config (allow_no_space_in_headings c) (html_entities c) b (b_github_alert c) (b_heading_v1 c) (b_heading_v2 c) (b_thematic_break c) (b_list c) (b_code_block c) (b_html_block c) (b_footnote_definition c) (b_link_definition c) (b_table c) (b_paragraph c) (i_autolink c) (i_link c) (i_footnote_reference c) (i_reference_link c) (i_hard_newline c) (i_image c) (i_code_span c) (i_emphasis c) (i_strikethrough c) (i_text c) (custom_block c) (custom_inline c) (punct_table c) (upper_table c).
Definition with_b_html_block b (c : config) : config :=
  Config (allow_no_space_in_headings c) (html_entities c) (b_blockquote c) (b_github_alert c) (b_heading_v1 c) (b_heading_v2 c) (b_thematic_break c) (b_list c) (b_code_block c) b (b_footnote_definition c) (b_link_definition c) (b_table c) (b_paragraph c) (i_autolink c) (i_link c) (i_footnote_reference c) (i_reference_link c) (i_hard_newline c) (i_image c) (i_code_span c) (i_emphasis c) (i_strikethrough c) (i_text c) (custom_block c) (custom_inline c) (punct_table c) (upper_table c).
Definition with_no_space (c : config) : config :=
  Config true (html_entities c) (b_blockquote c) (b_github_alert c) (b_heading_v1 c) (b_heading_v2 c) (b_thematic_break c) (b_list c) (b_code_block c) (b_html_block c) (b_footnote_definition c) (b_link_definition c) (b_table c) (b_paragraph c) (i_autolink c) (i_link c) (i_footnote_reference c) (i_reference_link c) (i_hard_newline c) (i_image c) (i_code_span c) (i_emphasis c) (i_strikethrough c) (i_text c) (custom_block c) (custom_inline c) (punct_table c) (upper_table c).
Definition test_config := default_config test_entities (fun _ => false) (fun c => [c]).

(* blocks/tests/blockquote.rs blockquote1 *)
Example t_blocks_blockquote_blockquote1_1 :
  parse_markdown test_config [62; 32; 97; 10; 62; 10; 62; 62; 32; 98]%N =
  Ok [] (Document [(BBlockQuote [(BParagraph [(IText (lit "a"))]); (BBlockQuote [(BParagraph [(IText (lit "b"))])])])]).
Proof. vm_compute. reflexivity. Qed.
(* blocks/tests/blockquote.rs blockquote2 *)
Example t_blocks_blockquote_blockquote2_1 :
  parse_markdown test_config [62; 62; 32; 97; 10; 62; 62; 10; 62; 62; 32; 98]%N =
  Ok [] (Document [(BBlockQuote [(BBlockQuote [(BParagraph [(IText (lit "a"))]); (BParagraph [(IText (lit "b"))])])])]).
Proof. vm_compute. reflexivity. Qed.
(* blocks/tests/blockquote.rs blockquote_skip1 *)
Example t_blocks_blockquote_blockquote_skip1_1 :
  parse_markdown (with_b_blockquote Skip test_config) [62; 32; 97; 10; 62; 10; 62; 62; 32; 98]%N =
  Ok [] (Document [BEmpty]).
Proof. vm_compute. reflexivity. Qed.
(* blocks/tests/blockquote.rs blockquote_skip2 *)
Example t_blocks_blockquote_blockquote_skip2_1 :
  parse_markdown (with_b_blockquote Skip test_config) [97; 10; 62; 32; 97; 10; 62; 10; 62; 62; 32; 98]%N =
  Ok [] (Document [(BParagraph [(IText (lit "a"))]); BEmpty]).
Proof. vm_compute. reflexivity. Qed.
(* blocks/tests/blockquote.rs blockquote_ignore1 *)
Example t_blocks_blockquote_blockquote_ignore1_1 :
  parse_markdown (with_b_blockquote Ignore test_config) [62; 32; 97; 10; 62; 10; 62; 62; 32; 98]%N =
  Ok [] (Document [(BParagraph [(IText [62; 32; 97; 10; 62; 10; 62; 62; 32; 98]%N)])]).
Proof. vm_compute. reflexivity. Qed.
(* blocks/tests/blockquote.rs blockquote_ignore2 *)
Example t_blocks_blockquote_blockquote_ignore2_1 :
  parse_markdown (with_b_blockquote Ignore test_config) [97; 10; 62; 32; 97; 10; 62; 10; 62; 62; 32; 98]%N =
  Ok [] (Document [(BParagraph [(IText [97; 10; 62; 32; 97; 10; 62; 10; 62; 62; 32; 98]%N)])]).
Proof. vm_compute. reflexivity. Qed.
(* blocks/tests/code_block.rs code_block_indented1 *)
Example t_blocks_code_block_code_block_indented1_1 :
  parse_markdown test_config (lit "     a") =
  Ok [] (Document [(BCodeBlock (CodeBlock Indented (lit " a")))]).
Proof. vm_compute. reflexivity. Qed.
(* blocks/tests/code_block.rs code_block_indented2 *)
Example t_blocks_code_block_code_block_indented2_1 :
  parse_markdown test_config [32; 32; 32; 32; 32; 97; 10; 32; 32; 32; 32; 98]%N =
  Ok [] (Document [(BCodeBlock (CodeBlock Indented [32; 97; 10; 98]%N))]).
Proof. vm_compute. reflexivity. Qed.
(* blocks/tests/code_block.rs code_block_fenced1 *)
Example t_blocks_code_block_code_block_fenced1_1 :
  parse_markdown test_config [96; 96; 96; 10; 97; 10; 96; 96; 96]%N =
  Ok [] (Document [(BCodeBlock (CodeBlock (Fenced None) (lit "a")))]).
Proof. vm_compute. reflexivity. Qed.
(* blocks/tests/code_block.rs code_block_fenced2 *)
Example t_blocks_code_block_code_block_fenced2_1 :
  parse_markdown test_config [32; 32; 96; 96; 96; 96; 96; 10; 97; 10; 96; 96; 96; 96; 96; 96; 96; 96; 96]%N =
  Ok [] (Document [(BCodeBlock (CodeBlock (Fenced None) (lit "a")))]).
Proof. vm_compute. reflexivity. Qed.
(* blocks/tests/code_block.rs code_block_fenced3 *)
Example t_blocks_code_block_code_block_fenced3_1 :
  parse_markdown test_config [32; 32; 96; 96; 96; 10; 32; 32; 32; 32; 97; 10; 32; 32; 32; 32; 32; 32; 98; 10; 96; 96; 96]%N =
  Ok [] (Document [(BCodeBlock (CodeBlock (Fenced None) [32; 32; 97; 10; 32; 32; 32; 32; 98]%N))]).
Proof. vm_compute. reflexivity. Qed.
(* blocks/tests/code_block.rs code_block_fenced4 *)
Example t_blocks_code_block_code_block_fenced4_1 :
  parse_markdown test_config [32; 32; 96; 96; 96; 114; 117; 115; 116; 10; 97; 10; 96; 96; 96]%N =
  Ok [] (Document [(BCodeBlock (CodeBlock (Fenced (Some (lit "rust"))) (lit "a")))]).
Proof. vm_compute. reflexivity. Qed.
(* blocks/tests/footnote_definition.rs footnote_definition1 *)
Example t_blocks_footnote_definition_footnote_definition1_1 :
  parse_markdown test_config (lit "[^foo]: definition") =
  Ok [] (Document [(BFootnoteDefinition (FootnoteDefinition (lit "foo") [(BParagraph [(IText (lit "definition"))])]))]).
Proof. vm_compute. reflexivity. Qed.
(* blocks/tests/footnote_definition.rs footnote_definition2 *)
Example t_blocks_footnote_definition_footnote_definition2_1 :
  parse_markdown test_config [91; 94; 102; 111; 111; 93; 58; 32; 108; 105; 110; 101; 49; 10; 32; 32; 32; 32; 108; 105; 110; 101; 50; 10]%N =
  Ok [] (Document [(BFootnoteDefinition (FootnoteDefinition (lit "foo") [(BParagraph [(IText [108; 105; 110; 101; 49; 10; 108; 105; 110; 101; 50]%N)])]))]).
Proof. vm_compute. reflexivity. Qed.
(* blocks/tests/github_alert.rs github_alert_note *)
Example t_blocks_github_alert_github_alert_note_1 :
  parse_markdown test_config [62; 32; 91; 33; 78; 79; 84; 69; 93; 10; 62; 32; 84; 104; 105; 115; 32; 105; 115; 32; 97; 32; 110; 111; 116; 101]%N =
  Ok [] (Document [(BGitHubAlert (GitHubAlert Note [(BParagraph [(IText (lit "This is a note"))])]))]).
Proof. vm_compute. reflexivity. Qed.
(* blocks/tests/github_alert.rs github_alert_tip *)
Example t_blocks_github_alert_github_alert_tip_1 :
  parse_markdown test_config [62; 32; 91; 33; 84; 73; 80; 93; 10; 62; 32; 84; 104; 105; 115; 32; 105; 115; 32; 97; 32; 116; 105; 112]%N =
  Ok [] (Document [(BGitHubAlert (GitHubAlert Tip [(BParagraph [(IText (lit "This is a tip"))])]))]).
Proof. vm_compute. reflexivity. Qed.
(* blocks/tests/github_alert.rs github_alert_important *)
Example t_blocks_github_alert_github_alert_important_1 :
  parse_markdown test_config [62; 32; 91; 33; 73; 77; 80; 79; 82; 84; 65; 78; 84; 93; 10; 62; 32; 84; 104; 105; 115; 32; 105; 115; 32; 105; 109; 112; 111; 114; 116; 97; 110; 116]%N =
  Ok [] (Document [(BGitHubAlert (GitHubAlert Important [(BParagraph [(IText (lit "This is important"))])]))]).
Proof. vm_compute. reflexivity. Qed.
(* blocks/tests/github_alert.rs github_alert_warning *)
Example t_blocks_github_alert_github_alert_warning_1 :
  parse_markdown test_config [62; 32; 91; 33; 87; 65; 82; 78; 73; 78; 71; 93; 10; 62; 32; 84; 104; 105; 115; 32; 105; 115; 32; 97; 32; 119; 97; 114; 110; 105; 110; 103]%N =
  Ok [] (Document [(BGitHubAlert (GitHubAlert Warning [(BParagraph [(IText (lit "This is a warning"))])]))]).
Proof. vm_compute. reflexivity. Qed.
(* blocks/tests/github_alert.rs github_alert_caution *)
Example t_blocks_github_alert_github_alert_caution_1 :
  parse_markdown test_config [62; 32; 91; 33; 67; 65; 85; 84; 73; 79; 78; 93; 10; 62; 32; 84; 104; 105; 115; 32; 105; 115; 32; 97; 32; 99; 97; 117; 116; 105; 111; 110]%N =
  Ok [] (Document [(BGitHubAlert (GitHubAlert Caution [(BParagraph [(IText (lit "This is a caution"))])]))]).
Proof. vm_compute. reflexivity. Qed.
(* blocks/tests/github_alert.rs github_alert_multiline *)
Example t_blocks_github_alert_github_alert_multiline_1 :
  parse_markdown test_config [62; 32; 91; 33; 78; 79; 84; 69; 93; 10; 62; 32; 76; 105; 110; 101; 32; 49; 10; 62; 32; 76; 105; 110; 101; 32; 50; 10; 62; 32; 10; 62; 32; 76; 105; 110; 101; 32; 51]%N =
  Ok [] (Document [(BGitHubAlert (GitHubAlert Note [(BParagraph [(IText [76; 105; 110; 101; 32; 49; 10; 76; 105; 110; 101; 32; 50]%N)]); (BParagraph [(IText (lit "Line 3"))])]))]).
Proof. vm_compute. reflexivity. Qed.
(* blocks/tests/github_alert.rs github_alert_with_formatting *)
Example t_blocks_github_alert_github_alert_with_formatting_1 :
  parse_markdown test_config [62; 32; 91; 33; 84; 73; 80; 93; 10; 62; 32; 85; 115; 101; 32; 42; 42; 98; 111; 108; 100; 42; 42; 32; 97; 110; 100; 32; 42; 105; 116; 97; 108; 105; 99; 42; 32; 116; 101; 120; 116]%N =
  Ok [] (Document [(BGitHubAlert (GitHubAlert Tip [(BParagraph [(IText (lit "Use ")); (IStrong [(IText (lit "bold"))]); (IText (lit " and ")); (IEmphasis [(IText (lit "italic"))]); (IText (lit " text"))])]))]).
Proof. vm_compute. reflexivity. Qed.
(* blocks/tests/github_alert.rs github_alert_empty_content *)
Example t_blocks_github_alert_github_alert_empty_content_1 :
  parse_markdown test_config [62; 32; 91; 33; 87; 65; 82; 78; 73; 78; 71; 93; 10; 62]%N =
  Ok [] (Document [(BGitHubAlert (GitHubAlert Warning []))]).
Proof. vm_compute. reflexivity. Qed.
(* blocks/tests/github_alert.rs regular_blockquote_not_alert *)
Example t_blocks_github_alert_regular_blockquote_not_alert_1 :
  parse_markdown test_config [62; 32; 84; 104; 105; 115; 32; 105; 115; 32; 110; 111; 116; 32; 97; 110; 32; 97; 108; 101; 114; 116; 10; 62; 32; 74; 117; 115; 116; 32; 97; 32; 114; 101; 103; 117; 108; 97; 114; 32; 98; 108; 111; 99; 107; 113; 117; 111; 116; 101]%N =
  Ok [] (Document [(BBlockQuote [(BParagraph [(IText [84; 104; 105; 115; 32; 105; 115; 32; 110; 111; 116; 32; 97; 110; 32; 97; 108; 101; 114; 116; 10; 74; 117; 115; 116; 32; 97; 32; 114; 101; 103; 117; 108; 97; 114; 32; 98; 108; 111; 99; 107; 113; 117; 111; 116; 101]%N)])])]).
Proof. vm_compute. reflexivity. Qed.
(* blocks/tests/github_alert.rs github_alert_case_insensitive *)
Example t_blocks_github_alert_github_alert_case_insensitive_1 :
  parse_markdown test_config [62; 32; 91; 33; 110; 111; 116; 101; 93; 10; 62; 32; 108; 111; 119; 101; 114; 99; 97; 115; 101; 32; 110; 111; 116; 101]%N =
  Ok [] (Document [(BGitHubAlert (GitHubAlert Note [(BParagraph [(IText (lit "lowercase note"))])]))]).
Proof. vm_compute. reflexivity. Qed.
(* blocks/tests/github_alert.rs github_alert_custom_simple *)
Example t_blocks_github_alert_github_alert_custom_simple_1 :
  parse_markdown test_config [62; 32; 91; 33; 67; 85; 83; 84; 79; 77; 93; 10; 62; 32; 84; 104; 105; 115; 32; 105; 115; 32; 97; 32; 99; 117; 115; 116; 111; 109; 32; 97; 108; 101; 114; 116]%N =
  Ok [] (Document [(BGitHubAlert (GitHubAlert (Custom (lit "CUSTOM")) [(BParagraph [(IText (lit "This is a custom alert"))])]))]).
Proof. vm_compute. reflexivity. Qed.
(* blocks/tests/github_alert.rs github_alert_custom_with_numbers *)
Example t_blocks_github_alert_github_alert_custom_with_numbers_1 :
  parse_markdown test_config [62; 32; 91; 33; 65; 76; 69; 82; 84; 49; 50; 51; 93; 10; 62; 32; 67; 117; 115; 116; 111; 109; 32; 97; 108; 101; 114; 116; 32; 119; 105; 116; 104; 32; 110; 117; 109; 98; 101; 114; 115]%N =
  Ok [] (Document [(BGitHubAlert (GitHubAlert (Custom (lit "ALERT123")) [(BParagraph [(IText (lit "Custom alert with numbers"))])]))]).
Proof. vm_compute. reflexivity. Qed.
(* blocks/tests/github_alert.rs github_alert_custom_with_underscores *)
Example t_blocks_github_alert_github_alert_custom_with_underscores_1 :
  parse_markdown test_config [62; 32; 91; 33; 77; 89; 95; 67; 85; 83; 84; 79; 77; 95; 65; 76; 69; 82; 84; 93; 10; 62; 32; 67; 117; 115; 116; 111; 109; 32; 97; 108; 101; 114; 116; 32; 119; 105; 116; 104; 32; 117; 110; 100; 101; 114; 115; 99; 111; 114; 101; 115]%N =
  Ok [] (Document [(BGitHubAlert (GitHubAlert (Custom (lit "MY_CUSTOM_ALERT")) [(BParagraph [(IText (lit "Custom alert with underscores"))])]))]).
Proof. vm_compute. reflexivity. Qed.
(* blocks/tests/github_alert.rs github_alert_custom_case_insensitive *)
Example t_blocks_github_alert_github_alert_custom_case_insensitive_1 :
  parse_markdown test_config [62; 32; 91; 33; 99; 117; 115; 116; 111; 109; 93; 10; 62; 32; 108; 111; 119; 101; 114; 99; 97; 115; 101; 32; 99; 117; 115; 116; 111; 109; 32; 97; 108; 101; 114; 116]%N =
  Ok [] (Document [(BGitHubAlert (GitHubAlert (Custom (lit "CUSTOM")) [(BParagraph [(IText (lit "lowercase custom alert"))])]))]).
Proof. vm_compute. reflexivity. Qed.
(* blocks/tests/github_alert.rs github_alert_invalid_custom_starts_with_number *)
Example t_blocks_github_alert_github_alert_invalid_custom_starts_with_number_1 :
  parse_markdown test_config [62; 32; 91; 33; 49; 50; 51; 73; 78; 86; 65; 76; 73; 68; 93; 10; 62; 32; 83; 104; 111; 117; 108; 100; 32; 110; 111; 116; 32; 98; 101; 32; 112; 97; 114; 115; 101; 100; 32; 97; 115; 32; 97; 108; 101; 114; 116]%N =
  Ok [] (Document [(BBlockQuote [(BParagraph [(ILinkReference (LinkReference [(IText (lit "!123INVALID"))] [(IText (lit "!123INVALID"))])); (IText [10; 83; 104; 111; 117; 108; 100; 32; 110; 111; 116; 32; 98; 101; 32; 112; 97; 114; 115; 101; 100; 32; 97; 115; 32; 97; 108; 101; 114; 116]%N)])])]).
Proof. vm_compute. reflexivity. Qed.
(* blocks/tests/github_alert.rs github_alert_invalid_custom_with_special_chars *)
Example t_blocks_github_alert_github_alert_invalid_custom_with_special_chars_1 :
  parse_markdown test_config [62; 32; 91; 33; 67; 85; 83; 84; 79; 77; 45; 65; 76; 69; 82; 84; 93; 10; 62; 32; 83; 104; 111; 117; 108; 100; 32; 110; 111; 116; 32; 98; 101; 32; 112; 97; 114; 115; 101; 100; 32; 97; 115; 32; 97; 108; 101; 114; 116]%N =
  Ok [] (Document [(BBlockQuote [(BParagraph [(ILinkReference (LinkReference [(IText (lit "!CUSTOM-ALERT"))] [(IText (lit "!CUSTOM-ALERT"))])); (IText [10; 83; 104; 111; 117; 108; 100; 32; 110; 111; 116; 32; 98; 101; 32; 112; 97; 114; 115; 101; 100; 32; 97; 115; 32; 97; 108; 101; 114; 116]%N)])])]).
Proof. vm_compute. reflexivity. Qed.
(* blocks/tests/heading.rs heading_v1 *)
Example t_blocks_heading_heading_v1_1 :
  parse_markdown test_config (lit "## a") =
  Ok [] (Document [(BHeading (Heading (Atx 2%N) [(IText (lit "a"))]))]).
Proof. vm_compute. reflexivity. Qed.
(* blocks/tests/heading.rs heading_v1 *)
Example t_blocks_heading_heading_v1_2 :
  parse_markdown test_config (lit "##a") =
  Ok [] (Document [(BParagraph [(IText (lit "##a"))])]).
Proof. vm_compute. reflexivity. Qed.
(* blocks/tests/heading.rs heading_v1 *)
Example t_blocks_heading_heading_v1_3 :
  parse_markdown (with_no_space test_config) (lit "##a") =
  Ok [] (Document [(BHeading (Heading (Atx 2%N) [(IText (lit "a"))]))]).
Proof. vm_compute. reflexivity. Qed.
(* blocks/tests/heading.rs heading_v2 *)
Example t_blocks_heading_heading_v2_1 :
  parse_markdown test_config [97; 10; 61; 61]%N =
  Ok [] (Document [(BHeading (Heading (Setext Level1) [(IText (lit "a"))]))]).
Proof. vm_compute. reflexivity. Qed.
(* blocks/tests/heading.rs heading_v2 *)
Example t_blocks_heading_heading_v2_2 :
  parse_markdown test_config [97; 10; 45; 45]%N =
  Ok [] (Document [(BHeading (Heading (Setext Level2) [(IText (lit "a"))]))]).
Proof. vm_compute. reflexivity. Qed.
(* blocks/tests/html_block.rs html_block1 *)
Example t_blocks_html_block_html_block1_1 :
  parse_markdown test_config [60; 115; 99; 114; 105; 112; 116; 62; 10; 60; 47; 115; 99; 114; 105; 112; 116; 62]%N =
  Ok [] (Document [(BHtmlBlock [60; 115; 99; 114; 105; 112; 116; 62; 10; 60; 47; 115; 99; 114; 105; 112; 116; 62]%N)]).
Proof. vm_compute. reflexivity. Qed.
(* blocks/tests/html_block.rs html_block1 *)
Example t_blocks_html_block_html_block1_2 :
  parse_markdown test_config [60; 115; 99; 114; 105; 112; 116; 62; 10; 10; 60; 104; 49; 62; 104; 101; 108; 108; 111; 60; 47; 104; 49; 62; 60; 47; 115; 99; 114; 105; 112; 116; 62]%N =
  Ok [] (Document [(BHtmlBlock [60; 115; 99; 114; 105; 112; 116; 62; 10; 10; 60; 104; 49; 62; 104; 101; 108; 108; 111; 60; 47; 104; 49; 62; 60; 47; 115; 99; 114; 105; 112; 116; 62]%N)]).
Proof. vm_compute. reflexivity. Qed.
(* blocks/tests/html_block.rs html_block2 *)
Example t_blocks_html_block_html_block2_1 :
  parse_markdown test_config [60; 33; 45; 45; 32; 10; 10; 115; 111; 109; 101; 32; 99; 111; 109; 109; 101; 110; 116; 101; 100; 10; 32; 111; 117; 116; 32; 99; 111; 100; 101; 32; 45; 45; 62]%N =
  Ok [] (Document [(BHtmlBlock [60; 33; 45; 45; 32; 10; 10; 115; 111; 109; 101; 32; 99; 111; 109; 109; 101; 110; 116; 101; 100; 10; 32; 111; 117; 116; 32; 99; 111; 100; 101; 32; 45; 45; 62]%N)]).
Proof. vm_compute. reflexivity. Qed.
(* blocks/tests/html_block.rs html_block3 *)
Example t_blocks_html_block_html_block3_1 :
  parse_markdown test_config [32; 32; 60; 63; 32; 10; 10; 115; 111; 109; 101; 32; 10; 32; 32; 32; 99; 111; 100; 101; 32; 63; 62; 32; 32]%N =
  Ok [] (Document [(BHtmlBlock [60; 63; 32; 10; 10; 115; 111; 109; 101; 32; 10; 32; 32; 32; 99; 111; 100; 101; 32; 63; 62]%N)]).
Proof. vm_compute. reflexivity. Qed.
(* blocks/tests/html_block.rs html_block4 *)
Example t_blocks_html_block_html_block4_1 :
  parse_markdown test_config [32; 32; 60; 33; 65; 32; 115; 111; 109; 101; 32; 10; 10; 10; 32; 116; 101; 120; 116; 32; 62; 32; 32]%N =
  Ok [] (Document [(BHtmlBlock [60; 33; 65; 32; 115; 111; 109; 101; 32; 10; 10; 10; 32; 116; 101; 120; 116; 32; 62]%N)]).
Proof. vm_compute. reflexivity. Qed.
(* blocks/tests/html_block.rs html_block5 *)
Example t_blocks_html_block_html_block5_1 :
  parse_markdown test_config [32; 32; 60; 33; 91; 67; 68; 65; 84; 65; 91; 32; 93; 10; 10; 91; 91; 93; 93; 60; 62; 32; 93; 93; 62; 32]%N =
  Ok [] (Document [(BHtmlBlock [60; 33; 91; 67; 68; 65; 84; 65; 91; 32; 93; 10; 10; 91; 91; 93; 93; 60; 62; 32; 93; 93; 62]%N)]).
Proof. vm_compute. reflexivity. Qed.
(* blocks/tests/html_block.rs html_block6 *)
Example t_blocks_html_block_html_block6_1 :
  parse_markdown test_config [32; 32; 60; 98; 111; 100; 121; 32; 32; 10; 10]%N =
  Ok [] (Document [(BHtmlBlock [60; 98; 111; 100; 121; 32; 32; 10]%N)]).
Proof. vm_compute. reflexivity. Qed.
(* blocks/tests/html_block.rs html_block6 *)
Example t_blocks_html_block_html_block6_2 :
  parse_markdown test_config [32; 32; 60; 98; 111; 100; 121; 32; 97; 32; 98; 61; 99; 32; 100; 61; 39; 101; 39; 32; 102; 61; 34; 103; 34; 32; 62; 10; 60; 47; 98; 111; 100; 121; 62; 10; 10]%N =
  Ok [] (Document [(BHtmlBlock [60; 98; 111; 100; 121; 32; 97; 32; 98; 61; 99; 32; 100; 61; 39; 101; 39; 32; 102; 61; 34; 103; 34; 32; 62; 10; 60; 47; 98; 111; 100; 121; 62; 10]%N)]).
Proof. vm_compute. reflexivity. Qed.
(* blocks/tests/html_block.rs html_block6 *)
Example t_blocks_html_block_html_block6_3 :
  parse_markdown test_config [32; 32; 60; 47; 98; 111; 100; 121; 62; 32; 60; 112; 62; 10; 60; 47; 112; 62; 10; 10]%N =
  Ok [] (Document [(BHtmlBlock [60; 47; 98; 111; 100; 121; 62; 32; 60; 112; 62; 10; 60; 47; 112; 62; 10]%N)]).
Proof. vm_compute. reflexivity. Qed.
(* blocks/tests/html_block.rs html_block_skip1 *)
Example t_blocks_html_block_html_block_skip1_1 :
  parse_markdown (with_b_html_block Skip test_config) [60; 115; 99; 114; 105; 112; 116; 62; 10; 60; 47; 115; 99; 114; 105; 112; 116; 62]%N =
  Ok [] (Document [BEmpty]).
Proof. vm_compute. reflexivity. Qed.
(* blocks/tests/html_block.rs html_block_skip1 *)
Example t_blocks_html_block_html_block_skip1_2 :
  parse_markdown (with_b_html_block Skip test_config) [60; 115; 99; 114; 105; 112; 116; 62; 10; 10; 60; 104; 49; 62; 104; 101; 108; 108; 111; 60; 47; 104; 49; 62; 60; 47; 115; 99; 114; 105; 112; 116; 62]%N =
  Ok [] (Document [BEmpty]).
Proof. vm_compute. reflexivity. Qed.
(* blocks/tests/html_block.rs html_block_ignore1 *)
Example t_blocks_html_block_html_block_ignore1_1 :
  parse_markdown (with_b_html_block Ignore test_config) [60; 115; 99; 114; 105; 112; 116; 62; 10; 60; 47; 115; 99; 114; 105; 112; 116; 62]%N =
  Ok [] (Document [(BParagraph [(IText [60; 115; 99; 114; 105; 112; 116; 62; 10; 60; 47; 115; 99; 114; 105; 112; 116; 62]%N)])]).
Proof. vm_compute. reflexivity. Qed.
(* blocks/tests/html_block.rs html_block_ignore1 *)
Example t_blocks_html_block_html_block_ignore1_2 :
  parse_markdown (with_b_html_block Ignore test_config) [60; 115; 99; 114; 105; 112; 116; 62; 10; 10; 60; 104; 49; 62; 104; 101; 108; 108; 111; 60; 47; 104; 49; 62; 60; 47; 115; 99; 114; 105; 112; 116; 62]%N =
  Ok [] (Document [(BParagraph [(IText (lit "<script>"))]); (BParagraph [(IText (lit "<h1>hello</h1></script>"))])]).
Proof. vm_compute. reflexivity. Qed.
(* blocks/tests/link_definition.rs link_definition1 *)
Example t_blocks_link_definition_link_definition1_1 :
  parse_markdown test_config [91; 102; 111; 111; 93; 58; 32; 47; 117; 114; 108; 32; 34; 116; 105; 116; 108; 101; 34]%N =
  Ok [] (Document [(BDefinition (LinkDefinition [(IText (lit "foo"))] (lit "/url") (Some (lit "title"))))]).
Proof. vm_compute. reflexivity. Qed.
(* blocks/tests/link_definition.rs link_definition2 *)
Example t_blocks_link_definition_link_definition2_1 :
  parse_markdown test_config [32; 32; 32; 91; 102; 111; 111; 93; 58; 32; 10; 32; 32; 32; 32; 32; 32; 47; 117; 114; 108; 32; 32; 10; 32; 32; 32; 32; 32; 32; 32; 32; 32; 32; 32; 39; 116; 104; 101; 32; 116; 105; 116; 108; 101; 39; 10]%N =
  Ok [] (Document [(BDefinition (LinkDefinition [(IText (lit "foo"))] (lit "/url") (Some (lit "the title"))))]).
Proof. vm_compute. reflexivity. Qed.
(* blocks/tests/link_definition.rs link_definition3 *)
Example t_blocks_link_definition_link_definition3_1 :
  parse_markdown test_config (lit "[Foo*bar\]]:my_(url) 'title (with parens)'") =
  Ok [] (Document [(BDefinition (LinkDefinition [(IText (lit "Foo*bar]"))] (lit "my_(url)") (Some (lit "title (with parens)"))))]).
Proof. vm_compute. reflexivity. Qed.
(* blocks/tests/link_definition.rs link_definition4 *)
Example t_blocks_link_definition_link_definition4_1 :
  parse_markdown test_config [91; 70; 111; 111; 32; 98; 97; 114; 93; 58; 10; 60; 109; 121; 32; 117; 114; 108; 62; 10; 39; 116; 105; 116; 108; 101; 39]%N =
  Ok [] (Document [(BDefinition (LinkDefinition [(IText (lit "Foo bar"))] (lit "my url") (Some (lit "title"))))]).
Proof. vm_compute. reflexivity. Qed.
(* blocks/tests/link_definition.rs link_definition5 *)
Example t_blocks_link_definition_link_definition5_1 :
  parse_markdown test_config [91; 102; 111; 111; 93; 58; 32; 47; 117; 114; 108; 32; 39; 10; 116; 105; 116; 108; 101; 10; 108; 105; 110; 101; 49; 10; 108; 105; 110; 101; 50; 10; 39]%N =
  Ok [] (Document [(BDefinition (LinkDefinition [(IText (lit "foo"))] (lit "/url") (Some [10; 116; 105; 116; 108; 101; 10; 108; 105; 110; 101; 49; 10; 108; 105; 110; 101; 50; 10]%N)))]).
Proof. vm_compute. reflexivity. Qed.
(* blocks/tests/link_definition.rs link_definition6 *)
Example t_blocks_link_definition_link_definition6_1 :
  parse_markdown test_config [91; 102; 111; 111; 93; 58; 10; 47; 117; 114; 108]%N =
  Ok [] (Document [(BDefinition (LinkDefinition [(IText (lit "foo"))] (lit "/url") None))]).
Proof. vm_compute. reflexivity. Qed.
(* blocks/tests/link_definition.rs link_definition7 *)
Example t_blocks_link_definition_link_definition7_1 :
  parse_markdown test_config (lit "[foo]: <>") =
  Ok [] (Document [(BDefinition (LinkDefinition [(IText (lit "foo"))] [] None))]).
Proof. vm_compute. reflexivity. Qed.
(* blocks/tests/list.rs list1 *)
Example t_blocks_list_list1_1 :
  parse_markdown test_config (lit "1. a") =
  Ok [] (Document [(BList (MkList (Ordered 1%N) [(ListItem None [(BParagraph [(IText (lit "a"))])])]))]).
Proof. vm_compute. reflexivity. Qed.
(* blocks/tests/list.rs list2 *)
Example t_blocks_list_list2_1 :
  parse_markdown test_config (lit "0100. a") =
  Ok [] (Document [(BList (MkList (Ordered 100%N) [(ListItem None [(BParagraph [(IText (lit "a"))])])]))]).
Proof. vm_compute. reflexivity. Qed.
(* blocks/tests/list.rs list3 *)
Example t_blocks_list_list3_1 :
  parse_markdown test_config (lit "1) a") =
  Ok [] (Document [(BList (MkList (Ordered 1%N) [(ListItem None [(BParagraph [(IText (lit "a"))])])]))]).
Proof. vm_compute. reflexivity. Qed.
(* blocks/tests/list.rs list4 *)
Example t_blocks_list_list4_1 :
  parse_markdown test_config (lit " -   a") =
  Ok [] (Document [(BList (MkList (Bullet Dash) [(ListItem None [(BParagraph [(IText (lit "a"))])])]))]).
Proof. vm_compute. reflexivity. Qed.
(* blocks/tests/list.rs list5 *)
Example t_blocks_list_list5_1 :
  parse_markdown test_config [49; 46; 32; 97; 10; 50; 46; 32; 98]%N =
  Ok [] (Document [(BList (MkList (Ordered 1%N) [(ListItem None [(BParagraph [(IText (lit "a"))])]); (ListItem None [(BParagraph [(IText (lit "b"))])])]))]).
Proof. vm_compute. reflexivity. Qed.
(* blocks/tests/list.rs list6 *)
Example t_blocks_list_list6_1 :
  parse_markdown test_config [32; 45; 32; 97; 10; 98]%N =
  Ok [] (Document [(BList (MkList (Bullet Dash) [(ListItem None [(BParagraph [(IText [97; 10; 98]%N)])])]))]).
Proof. vm_compute. reflexivity. Qed.
(* blocks/tests/list.rs list7 *)
Example t_blocks_list_list7_1 :
  parse_markdown test_config [32; 45; 32; 97; 10; 98; 10; 10; 99]%N =
  Ok [] (Document [(BList (MkList (Bullet Dash) [(ListItem None [(BParagraph [(IText [97; 10; 98]%N)])])])); (BParagraph [(IText (lit "c"))])]).
Proof. vm_compute. reflexivity. Qed.
(* blocks/tests/list.rs list8 *)
Example t_blocks_list_list8_1 :
  parse_markdown test_config [32; 45; 32; 97; 10; 98; 10; 10; 32; 32; 32; 99]%N =
  Ok [] (Document [(BList (MkList (Bullet Dash) [(ListItem None [(BParagraph [(IText [97; 10; 98]%N)]); (BParagraph [(IText (lit "c"))])])]))]).
Proof. vm_compute. reflexivity. Qed.
(* blocks/tests/list.rs list9 *)
Example t_blocks_list_list9_1 :
  parse_markdown test_config [49; 46; 32; 108; 105; 115; 116; 49; 10; 32; 32; 32; 42; 32; 108; 105; 115; 116; 50; 10; 32; 32; 32; 42; 32; 108; 105; 115; 116; 50; 10; 50; 46; 32; 108; 105; 115; 116; 49]%N =
  Ok [] (Document [(BList (MkList (Ordered 1%N) [(ListItem None [(BParagraph [(IText (lit "list1"))]); (BList (MkList (Bullet Star) [(ListItem None [(BParagraph [(IText (lit "list2"))])]); (ListItem None [(BParagraph [(IText (lit "list2"))])])]))]); (ListItem None [(BParagraph [(IText (lit "list1"))])])]))]).
Proof. vm_compute. reflexivity. Qed.
(* blocks/tests/list.rs list10 *)
Example t_blocks_list_list10_1 :
  parse_markdown test_config [32; 42; 32; 108; 105; 115; 116; 49; 10; 32; 42; 32; 108; 105; 115; 116; 49]%N =
  Ok [] (Document [(BList (MkList (Bullet Star) [(ListItem None [(BParagraph [(IText (lit "list1"))])]); (ListItem None [(BParagraph [(IText (lit "list1"))])])]))]).
Proof. vm_compute. reflexivity. Qed.
(* blocks/tests/list.rs task_list1 *)
Example t_blocks_list_task_list1_1 :
  parse_markdown test_config (lit " - [ ] a") =
  Ok [] (Document [(BList (MkList (Bullet Dash) [(ListItem (Some Incomplete) [(BParagraph [(IText (lit "a"))])])]))]).
Proof. vm_compute. reflexivity. Qed.
(* blocks/tests/list.rs task_list2 *)
Example t_blocks_list_task_list2_1 :
  parse_markdown test_config (lit " - [x] a") =
  Ok [] (Document [(BList (MkList (Bullet Dash) [(ListItem (Some Complete) [(BParagraph [(IText (lit "a"))])])]))]).
Proof. vm_compute. reflexivity. Qed.
(* blocks/tests/list.rs task_list3 *)
Example t_blocks_list_task_list3_1 :
  parse_markdown test_config (lit " -   [x]   a") =
  Ok [] (Document [(BList (MkList (Bullet Dash) [(ListItem (Some Complete) [(BParagraph [(IText (lit "a"))])])]))]).
Proof. vm_compute. reflexivity. Qed.
(* blocks/tests/list.rs task_list4 *)
Example t_blocks_list_task_list4_1 :
  parse_markdown test_config (lit " - [ ] ") =
  Ok [] (Document [(BList (MkList (Bullet Dash) [(ListItem (Some Incomplete) [])]))]).
Proof. vm_compute. reflexivity. Qed.
(* blocks/tests/list.rs task_list5 *)
Example t_blocks_list_task_list5_1 :
  parse_markdown test_config [32; 32; 45; 32; 32; 91; 32; 93; 32; 10; 10; 32; 32; 32; 32; 32; 97]%N =
  Ok [] (Document [(BList (MkList (Bullet Dash) [(ListItem (Some Incomplete) [(BParagraph [(IText (lit "a"))])])]))]).
Proof. vm_compute. reflexivity. Qed.
(* blocks/tests/paragraph.rs minimal_paragraph *)
Example t_blocks_paragraph_minimal_paragraph_1 :
  parse_markdown test_config (lit "a") =
  Ok [] (Document [(BParagraph [(IText (lit "a"))])]).
Proof. vm_compute. reflexivity. Qed.
(* blocks/tests/paragraph.rs minimal_paragraph *)
Example t_blocks_paragraph_minimal_paragraph_2 :
  parse_markdown test_config (lit "a b c") =
  Ok [] (Document [(BParagraph [(IText (lit "a b c"))])]).
Proof. vm_compute. reflexivity. Qed.
(* blocks/tests/paragraph.rs minimal_paragraph *)
Example t_blocks_paragraph_minimal_paragraph_3 :
  parse_markdown test_config [97; 10; 98; 10; 99]%N =
  Ok [] (Document [(BParagraph [(IText [97; 10; 98; 10; 99]%N)])]).
Proof. vm_compute. reflexivity. Qed.
(* blocks/tests/paragraph.rs multi_paragraph1 *)
Example t_blocks_paragraph_multi_paragraph1_1 :
  parse_markdown test_config [97; 10; 10; 98]%N =
  Ok [] (Document [(BParagraph [(IText (lit "a"))]); (BParagraph [(IText (lit "b"))])]).
Proof. vm_compute. reflexivity. Qed.
(* blocks/tests/paragraph.rs multi_paragraph2 *)
Example t_blocks_paragraph_multi_paragraph2_1 :
  parse_markdown test_config [97; 10; 10; 10; 10; 10; 98]%N =
  Ok [] (Document [(BParagraph [(IText (lit "a"))]); (BParagraph [(IText (lit "b"))])]).
Proof. vm_compute. reflexivity. Qed.
(* blocks/tests/paragraph.rs multi_paragraph3 *)
Example t_blocks_paragraph_multi_paragraph3_1 :
  parse_markdown test_config [97; 10; 10; 32; 32; 98]%N =
  Ok [] (Document [(BParagraph [(IText (lit "a"))]); (BParagraph [(IText (lit "b"))])]).
Proof. vm_compute. reflexivity. Qed.
(* blocks/tests/paragraph.rs multi_paragraph4 *)
Example t_blocks_paragraph_multi_paragraph4_1 :
  parse_markdown test_config [97; 97; 97; 10; 10; 61; 61; 61]%N =
  Ok [] (Document [(BParagraph [(IText (lit "aaa"))]); (BParagraph [(IText (lit "==="))])]).
Proof. vm_compute. reflexivity. Qed.
(* blocks/tests/paragraph.rs paragraph_with_indented_line1 *)
Example t_blocks_paragraph_paragraph_with_indented_line1_1 :
  parse_markdown test_config [97; 10; 32; 32; 32; 32; 98]%N =
  Ok [] (Document [(BParagraph [(IText [97; 10; 32; 98]%N)])]).
Proof. vm_compute. reflexivity. Qed.
(* blocks/tests/table.rs table1 *)
Example t_blocks_table_table1_1 :
  parse_markdown test_config [124; 32; 102; 111; 111; 32; 124; 32; 98; 97; 114; 32; 124; 10; 124; 32; 45; 45; 45; 32; 124; 32; 45; 45; 45; 32; 124; 10; 124; 32; 98; 97; 122; 32; 124; 32; 98; 105; 109; 32; 124]%N =
  Ok [] (Document [(BTable (Table [[[(IText (lit "foo"))]; [(IText (lit "bar"))]]; [[(IText (lit "baz"))]; [(IText (lit "bim"))]]] [ANone; ANone]))]).
Proof. vm_compute. reflexivity. Qed.
(* blocks/tests/table.rs table2 *)
Example t_blocks_table_table2_1 :
  parse_markdown test_config [124; 32; 102; 111; 111; 32; 124; 32; 98; 97; 114; 32; 124; 10; 124; 32; 58; 45; 45; 32; 124; 32; 45; 45; 58; 32; 124; 10; 124; 32; 98; 97; 122; 32; 124; 32; 98; 105; 109; 32; 124]%N =
  Ok [] (Document [(BTable (Table [[[(IText (lit "foo"))]; [(IText (lit "bar"))]]; [[(IText (lit "baz"))]; [(IText (lit "bim"))]]] [ALeft; ARight]))]).
Proof. vm_compute. reflexivity. Qed.
(* blocks/tests/table.rs table3 *)
Example t_blocks_table_table3_1 :
  parse_markdown test_config [124; 32; 102; 111; 111; 32; 124; 32; 98; 97; 114; 32; 124; 10; 124; 32; 45; 45; 45; 32; 124; 32; 45; 45; 45; 32; 124; 10; 124; 32; 98; 97; 122; 32; 124; 32; 98; 92; 124; 105; 109; 32; 124]%N =
  Ok [] (Document [(BTable (Table [[[(IText (lit "foo"))]; [(IText (lit "bar"))]]; [[(IText (lit "baz"))]; [(IText (lit "b|im"))]]] [ANone; ANone]))]).
Proof. vm_compute. reflexivity. Qed.
(* blocks/tests/table.rs table4 *)
Example t_blocks_table_table4_1 :
  parse_markdown test_config [124; 32; 97; 98; 99; 32; 124; 32; 100; 101; 102; 32; 124; 10; 124; 32; 45; 45; 45; 32; 124; 32; 45; 45; 45; 32; 124; 10; 124; 32; 98; 97; 114; 32; 124; 10; 124; 32; 98; 97; 114; 32; 124; 32; 98; 97; 122; 32; 124; 32; 98; 111; 111; 32; 124]%N =
  Ok [] (Document [(BTable (Table [[[(IText (lit "abc"))]; [(IText (lit "def"))]]; [[(IText (lit "bar"))]; [(IText [])]]; [[(IText (lit "bar"))]; [(IText (lit "baz"))]]] [ANone; ANone]))]).
Proof. vm_compute. reflexivity. Qed.
(* blocks/tests/table.rs table5 *)
Example t_blocks_table_table5_1 :
  parse_markdown test_config [124; 32; 104; 101; 97; 100; 101; 114; 49; 32; 124; 32; 104; 101; 97; 100; 101; 114; 50; 32; 124; 10; 124; 32; 45; 45; 45; 45; 45; 45; 45; 32; 124; 32; 45; 45; 45; 45; 45; 45; 45; 32; 124; 10; 124; 32; 99; 101; 108; 108; 49; 32; 124; 32; 99; 101; 108; 108; 50; 32; 124; 32; 101; 120; 116; 114; 97; 49; 32; 124; 32; 101; 120; 116; 114; 97; 50; 32; 124; 10; 124; 32; 99; 101; 108; 108; 51; 32; 124; 32; 99; 101; 108; 108; 52; 32; 124; 32; 101; 120; 116; 114; 97; 51; 32; 124]%N =
  Ok [] (Document [(BTable (Table [[[(IText (lit "header1"))]; [(IText (lit "header2"))]]; [[(IText (lit "cell1"))]; [(IText (lit "cell2"))]]; [[(IText (lit "cell3"))]; [(IText (lit "cell4"))]]] [ANone; ANone]))]).
Proof. vm_compute. reflexivity. Qed.
(* blocks/tests/table.rs table6 *)
Example t_blocks_table_table6_1 :
  parse_markdown test_config [124; 32; 104; 101; 97; 100; 101; 114; 49; 32; 124; 32; 104; 101; 97; 100; 101; 114; 50; 10; 124; 32; 45; 45; 45; 45; 45; 45; 45; 32; 124; 32; 45; 45; 45; 45; 45; 45; 45; 10; 124; 32; 99; 101; 108; 108; 49; 32; 124; 32; 99; 101; 108; 108; 50; 10; 124; 32; 99; 101; 108; 108; 51; 32; 124; 32; 99; 101; 108; 108; 52]%N =
  Ok [] (Document [(BTable (Table [[[(IText (lit "header1"))]; [(IText (lit "header2"))]]; [[(IText (lit "cell1"))]; [(IText (lit "cell2"))]]; [[(IText (lit "cell3"))]; [(IText (lit "cell4"))]]] [ANone; ANone]))]).
Proof. vm_compute. reflexivity. Qed.
(* blocks/tests/table.rs table7 *)
Example t_blocks_table_table7_1 :
  parse_markdown test_config [124; 32; 83; 104; 111; 114; 116; 32; 124; 32; 86; 101; 114; 121; 32; 108; 111; 110; 103; 32; 99; 111; 110; 116; 101; 110; 116; 32; 116; 104; 97; 116; 32; 119; 111; 117; 108; 100; 32; 110; 111; 114; 109; 97; 108; 108; 121; 32; 119; 114; 97; 112; 32; 111; 110; 32; 110; 97; 114; 114; 111; 119; 32; 100; 105; 115; 112; 108; 97; 121; 115; 32; 98; 117; 116; 32; 115; 104; 111; 117; 108; 100; 32; 98; 101; 32; 112; 114; 101; 115; 101; 114; 118; 101; 100; 32; 97; 115; 45; 105; 115; 32; 124; 10; 124; 32; 45; 45; 45; 45; 45; 32; 124; 32; 45; 45; 45; 45; 45; 45; 45; 45; 45; 45; 45; 45; 45; 45; 45; 45; 45; 45; 45; 45; 45; 45; 45; 45; 45; 45; 45; 45; 45; 45; 45; 45; 45; 45; 45; 45; 45; 45; 45; 45; 45; 45; 45; 45; 45; 45; 45; 45; 45; 45; 45; 45; 45; 45; 45; 45; 45; 45; 45; 45; 45; 45; 45; 45; 45; 45; 45; 45; 45; 45; 45; 45; 45; 45; 45; 45; 45; 45; 45; 45; 45; 45; 45; 45; 45; 45; 45; 45; 45; 45; 45; 45; 32; 124; 10; 124; 32; 65; 32; 32; 32; 32; 32; 124; 32; 84; 104; 105; 115; 32; 105; 115; 32; 97; 110; 111; 116; 104; 101; 114; 32; 118; 101; 114; 121; 32; 108; 111; 110; 103; 32; 99; 101; 108; 108; 32; 99; 111; 110; 116; 101; 110; 116; 32; 116; 104; 97; 116; 32; 116; 101; 115; 116; 115; 32; 104; 111; 119; 32; 116; 104; 101; 32; 112; 97; 114; 115; 101; 114; 32; 104; 97; 110; 100; 108; 101; 115; 32; 108; 101; 110; 103; 116; 104; 121; 32; 116; 101; 120; 116; 32; 32; 32; 32; 32; 32; 32; 32; 124]%N =
  Ok [] (Document [(BTable (Table [[[(IText (lit "Short"))]; [(IText (lit "Very long content that would normally wrap on narrow displays but should be preserved as-is"))]]; [[(IText (lit "A"))]; [(IText (lit "This is another very long cell content that tests how the parser handles lengthy text"))]]] [ANone; ANone]))]).
Proof. vm_compute. reflexivity. Qed.
(* blocks/tests/thematic_break.rs thematic_break *)
Example t_blocks_thematic_break_thematic_break_1 :
  parse_markdown test_config (lit "---") =
  Ok [] (Document [BThematicBreak]).
Proof. vm_compute. reflexivity. Qed.
(* inline/tests/autolink.rs autolink1 *)
Example t_inline_autolink_autolink1_1 :
  parse_markdown test_config (lit "<http://foo.bar.baz>") =
  Ok [] (Document [(BParagraph [(IAutolink (lit "http://foo.bar.baz"))])]).
Proof. vm_compute. reflexivity. Qed.
(* inline/tests/autolink.rs autolink2 *)
Example t_inline_autolink_autolink2_1 :
  parse_markdown test_config (lit "<irc://foo.bar:2233/baz>") =
  Ok [] (Document [(BParagraph [(IAutolink (lit "irc://foo.bar:2233/baz"))])]).
Proof. vm_compute. reflexivity. Qed.
(* inline/tests/autolink.rs autolink3 *)
Example t_inline_autolink_autolink3_1 :
  parse_markdown test_config (lit "<MAILTO:FOO@BAR.BAZ>") =
  Ok [] (Document [(BParagraph [(IAutolink (lit "MAILTO:FOO@BAR.BAZ"))])]).
Proof. vm_compute. reflexivity. Qed.
(* inline/tests/autolink.rs autolink4 *)
Example t_inline_autolink_autolink4_1 :
  parse_markdown test_config (lit "<http://foo.bar/baz bim>") =
  Ok [] (Document [(BParagraph [(IText (lit "<http://foo.bar/baz bim>"))])]).
Proof. vm_compute. reflexivity. Qed.
(* inline/tests/autolink.rs autolink5 *)
Example t_inline_autolink_autolink5_1 :
  parse_markdown test_config (lit "<http://example.com/\[\>") =
  Ok [] (Document [(BParagraph [(IAutolink (lit "http://example.com/\[\"))])]).
Proof. vm_compute. reflexivity. Qed.
(* inline/tests/autolink.rs autolink6 *)
Example t_inline_autolink_autolink6_1 :
  parse_markdown test_config (lit "<>") =
  Ok [] (Document [(BParagraph [(IText (lit "<>"))])]).
Proof. vm_compute. reflexivity. Qed.
(* inline/tests/code_span.rs code_span1 *)
Example t_inline_code_span_code_span1_1 :
  parse_markdown test_config (lit "`foo`") =
  Ok [] (Document [(BParagraph [(ICode (lit "foo"))])]).
Proof. vm_compute. reflexivity. Qed.
(* inline/tests/code_span.rs code_span2 *)
Example t_inline_code_span_code_span2_1 :
  parse_markdown test_config (lit "`` foo ` bar ``") =
  Ok [] (Document [(BParagraph [(ICode (lit "foo ` bar"))])]).
Proof. vm_compute. reflexivity. Qed.
(* inline/tests/code_span.rs code_span3 *)
Example t_inline_code_span_code_span3_1 :
  parse_markdown test_config [96; 96; 10; 102; 111; 111; 10; 98; 97; 114; 32; 32; 10; 98; 97; 122; 10; 96; 96]%N =
  Ok [] (Document [(BParagraph [(ICode (lit "foo bar   baz"))])]).
Proof. vm_compute. reflexivity. Qed.
(* inline/tests/emphasis.rs emphasis1 *)
Example t_inline_emphasis_emphasis1_1 :
  parse_markdown test_config (lit "*foo bar*") =
  Ok [] (Document [(BParagraph [(IEmphasis [(IText (lit "foo bar"))])])]).
Proof. vm_compute. reflexivity. Qed.
(* inline/tests/emphasis.rs emphasis2 *)
Example t_inline_emphasis_emphasis2_1 :
  parse_markdown test_config (lit "* a *") =
  Ok [] (Document [(BList (MkList (Bullet Star) [(ListItem None [(BParagraph [(IText (lit "a *"))])])]))]).
Proof. vm_compute. reflexivity. Qed.
(* inline/tests/emphasis.rs emphasis3 *)
Example t_inline_emphasis_emphasis3_1 :
  parse_markdown test_config (lit "foo ___bar___") =
  Ok [] (Document [(BParagraph [(IText (lit "foo ")); (IStrong [(IEmphasis [(IText (lit "bar"))])])])]).
Proof. vm_compute. reflexivity. Qed.
(* inline/tests/emphasis.rs emphasis4 *)
Example t_inline_emphasis_emphasis4_1 :
  parse_markdown test_config (lit "**foo ___bar___ baz**") =
  Ok [] (Document [(BParagraph [(IStrong [(IText (lit "foo ")); (IStrong [(IEmphasis [(IText (lit "bar"))])]); (IText (lit " baz"))])])]).
Proof. vm_compute. reflexivity. Qed.
(* inline/tests/emphasis.rs test_multiple_env_vars_with_emphasis *)
Example t_inline_emphasis_test_multiple_env_vars_with_emphasis_1 :
  parse_markdown test_config (lit "Set PATH_TO_FILE and CMAKE_BUILD_TYPE to _debug_ for testing") =
  Ok [] (Document [(BParagraph [(IText (lit "Set PATH_TO_FILE and CMAKE_BUILD_TYPE to ")); (IEmphasis [(IText (lit "debug"))]); (IText (lit " for testing"))])]).
Proof. vm_compute. reflexivity. Qed.
(* inline/tests/emphasis.rs test_env_var_mixed_case *)
Example t_inline_emphasis_test_env_var_mixed_case_1 :
  parse_markdown test_config (lit "Use my_custom_var for configuration") =
  Ok [] (Document [(BParagraph [(IText (lit "Use my_custom_var for configuration"))])]).
Proof. vm_compute. reflexivity. Qed.
(* inline/tests/emphasis.rs test_false_positive_prevention *)
Example t_inline_emphasis_test_false_positive_prevention_1 :
  parse_markdown test_config (lit "Text with _emphasis_ and __strong__ formatting") =
  Ok [] (Document [(BParagraph [(IText (lit "Text with ")); (IEmphasis [(IText (lit "emphasis"))]); (IText (lit " and ")); (IStrong [(IText (lit "strong"))]); (IText (lit " formatting"))])]).
Proof. vm_compute. reflexivity. Qed.
(* inline/tests/footnote_reference.rs footnote_reference1 *)
Example t_inline_footnote_reference_footnote_reference1_1 :
  parse_markdown test_config (lit "[^label]") =
  Ok [] (Document [(BParagraph [(IFootnoteReference (lit "label"))])]).
Proof. vm_compute. reflexivity. Qed.
(* inline/tests/hard_newline.rs hard_newline1 *)
Example t_inline_hard_newline_hard_newline1_1 :
  parse_markdown test_config [108; 105; 110; 101; 49; 92; 10; 108; 105; 110; 101; 50]%N =
  Ok [] (Document [(BParagraph [(IText (lit "line1")); ILineBreak; (IText (lit "line2"))])]).
Proof. vm_compute. reflexivity. Qed.
(* inline/tests/hard_newline.rs hard_newline2 *)
Example t_inline_hard_newline_hard_newline2_1 :
  parse_markdown test_config [108; 105; 110; 101; 49; 32; 32; 10; 108; 105; 110; 101; 50]%N =
  Ok [] (Document [(BParagraph [(IText (lit "line1")); ILineBreak; (IText (lit "line2"))])]).
Proof. vm_compute. reflexivity. Qed.
(* inline/tests/html_entity.rs html_entity1 *)
Example t_inline_html_entity_html_entity1_1 :
  parse_markdown test_config (lit "&amp;") =
  Ok [] (Document [(BParagraph [(IText (lit "&"))])]).
Proof. vm_compute. reflexivity. Qed.
(* inline/tests/html_entity.rs html_entity2 *)
Example t_inline_html_entity_html_entity2_1 :
  parse_markdown test_config (lit "&#32;") =
  Ok [] (Document [(BParagraph [(IText (lit " "))])]).
Proof. vm_compute. reflexivity. Qed.
(* inline/tests/html_entity.rs html_entity3 *)
Example t_inline_html_entity_html_entity3_1 :
  parse_markdown test_config (lit "&#x20;") =
  Ok [] (Document [(BParagraph [(IText (lit " "))])]).
Proof. vm_compute. reflexivity. Qed.
(* inline/tests/html_entity.rs html_entity4 *)
Example t_inline_html_entity_html_entity4_1 :
  parse_markdown test_config (lit "&unknownchar;") =
  Ok [] (Document [(BParagraph [(IText (lit "&unknownchar;"))])]).
Proof. vm_compute. reflexivity. Qed.
(* inline/tests/image.rs image1 *)
Example t_inline_image_image1_1 :
  parse_markdown test_config [33; 91; 102; 111; 111; 93; 40; 47; 117; 114; 108; 32; 34; 116; 105; 116; 108; 101; 34; 41]%N =
  Ok [] (Document [(BParagraph [(IImage (Image (lit "/url") (Some (lit "title")) (lit "foo")))])]).
Proof. vm_compute. reflexivity. Qed.
(* inline/tests/image.rs image2 *)
Example t_inline_image_image2_1 :
  parse_markdown test_config (lit "![foo](train.jpg)") =
  Ok [] (Document [(BParagraph [(IImage (Image (lit "train.jpg") None (lit "foo")))])]).
Proof. vm_compute. reflexivity. Qed.
(* inline/tests/image.rs image3 *)
Example t_inline_image_image3_1 :
  parse_markdown test_config (lit "![foo](<url>)") =
  Ok [] (Document [(BParagraph [(IImage (Image (lit "url") None (lit "foo")))])]).
Proof. vm_compute. reflexivity. Qed.
(* inline/tests/image.rs image4 *)
Example t_inline_image_image4_1 :
  parse_markdown test_config (lit "![](train.jpg)") =
  Ok [] (Document [(BParagraph [(IImage (Image (lit "train.jpg") None []))])]).
Proof. vm_compute. reflexivity. Qed.
(* inline/tests/inline_link.rs inline_link1 *)
Example t_inline_inline_link_inline_link1_1 :
  parse_markdown test_config [91; 102; 111; 111; 93; 40; 47; 117; 114; 108; 32; 34; 116; 105; 116; 108; 101; 34; 41]%N =
  Ok [] (Document [(BParagraph [(ILink (Link (lit "/url") (Some (lit "title")) [(IText (lit "foo"))]))])]).
Proof. vm_compute. reflexivity. Qed.
(* inline/tests/inline_link.rs inline_link2 *)
Example t_inline_inline_link_inline_link2_1 :
  parse_markdown test_config (lit "[foo](train.jpg)") =
  Ok [] (Document [(BParagraph [(ILink (Link (lit "train.jpg") None [(IText (lit "foo"))]))])]).
Proof. vm_compute. reflexivity. Qed.
(* inline/tests/inline_link.rs inline_link3 *)
Example t_inline_inline_link_inline_link3_1 :
  parse_markdown test_config (lit "[foo](<url>)") =
  Ok [] (Document [(BParagraph [(ILink (Link (lit "url") None [(IText (lit "foo"))]))])]).
Proof. vm_compute. reflexivity. Qed.
(* inline/tests/reference_link.rs reference_link1 *)
Example t_inline_reference_link_reference_link1_1 :
  parse_markdown test_config (lit "[text][label]") =
  Ok [] (Document [(BParagraph [(ILinkReference (LinkReference [(IText (lit "label"))] [(IText (lit "text"))]))])]).
Proof. vm_compute. reflexivity. Qed.
(* inline/tests/reference_link.rs reference_link2 *)
Example t_inline_reference_link_reference_link2_1 :
  parse_markdown test_config (lit "[text][]") =
  Ok [] (Document [(BParagraph [(ILinkReference (LinkReference [(IText (lit "text"))] [(IText (lit "text"))]))])]).
Proof. vm_compute. reflexivity. Qed.
(* inline/tests/reference_link.rs reference_link3 *)
Example t_inline_reference_link_reference_link3_1 :
  parse_markdown test_config (lit "[text]") =
  Ok [] (Document [(BParagraph [(ILinkReference (LinkReference [(IText (lit "text"))] [(IText (lit "text"))]))])]).
Proof. vm_compute. reflexivity. Qed.
(* inline/tests/strikethrough.rs strikethrough1 *)
Example t_inline_strikethrough_strikethrough1_1 :
  parse_markdown test_config (lit "~~text~~") =
  Ok [] (Document [(BParagraph [(IStrikethrough [(IText (lit "text"))])])]).
Proof. vm_compute. reflexivity. Qed.
(* inline/tests/strikethrough.rs strikethrough2 *)
Example t_inline_strikethrough_strikethrough2_1 :
  parse_markdown test_config (lit "~~text~~~") =
  Ok [] (Document [(BParagraph [(IStrikethrough [(IText (lit "text~"))])])]).
Proof. vm_compute. reflexivity. Qed.
(* inline/tests/strikethrough.rs strikethrough3 *)
Example t_inline_strikethrough_strikethrough3_1 :
  parse_markdown test_config (lit "~~~text~~~") =
  Ok [] (Document [(BParagraph [(IText (lit "~")); (IStrikethrough [(IText (lit "text~"))])])]).
Proof. vm_compute. reflexivity. Qed.
