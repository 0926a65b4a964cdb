(** The builder methods of the configurations.  Generated by tools/gen_config.py. *)
From Verif Require Export ParserConfig MdPrinter.
Import ListNotations.

(** ** Parser: /repo/src/parser/config.rs.  Every method is "Self { field: value, ..self }". *)
(** parser/config.rs:165-170 *)
Definition with_allow_no_space_in_headings (c : config) : config :=
  Config (true) (html_entities c) (b_blockquote c) (b_github_alert c) (b_heading_v1 c) (b_heading_v2 c) (b_thematic_break c) (b_list c) (b_code_block c) (b_html_block c) (b_footnote_definition c) (b_link_definition c) (b_table c) (b_paragraph c) (i_autolink c) (i_link c) (i_footnote_reference c) (i_reference_link c) (i_hard_newline c) (i_image c) (i_code_span c) (i_emphasis c) (i_strikethrough c) (i_text c) (custom_block c) (custom_inline c) (punct_table c) (upper_table c).
(** parser/config.rs:173-181 *)
Definition with_html_entities_map (c : config) (v : str -> option str) : config :=
  Config (allow_no_space_in_headings c) (v) (b_blockquote c) (b_github_alert c) (b_heading_v1 c) (b_heading_v2 c) (b_thematic_break c) (b_list c) (b_code_block c) (b_html_block c) (b_footnote_definition c) (b_link_definition c) (b_table c) (b_paragraph c) (i_autolink c) (i_link c) (i_footnote_reference c) (i_reference_link c) (i_hard_newline c) (i_image c) (i_code_span c) (i_emphasis c) (i_strikethrough c) (i_text c) (custom_block c) (custom_inline c) (punct_table c) (upper_table c).
(** parser/config.rs:184-192 *)
Definition with_block_blockquote_behavior (c : config) (v : behavior block) : config :=
  Config (allow_no_space_in_headings c) (html_entities c) (v) (b_github_alert c) (b_heading_v1 c) (b_heading_v2 c) (b_thematic_break c) (b_list c) (b_code_block c) (b_html_block c) (b_footnote_definition c) (b_link_definition c) (b_table c) (b_paragraph c) (i_autolink c) (i_link c) (i_footnote_reference c) (i_reference_link c) (i_hard_newline c) (i_image c) (i_code_span c) (i_emphasis c) (i_strikethrough c) (i_text c) (custom_block c) (custom_inline c) (punct_table c) (upper_table c).
(** parser/config.rs:195-203 *)
Definition with_block_github_alert_behavior (c : config) (v : behavior block) : config :=
  Config (allow_no_space_in_headings c) (html_entities c) (b_blockquote c) (v) (b_heading_v1 c) (b_heading_v2 c) (b_thematic_break c) (b_list c) (b_code_block c) (b_html_block c) (b_footnote_definition c) (b_link_definition c) (b_table c) (b_paragraph c) (i_autolink c) (i_link c) (i_footnote_reference c) (i_reference_link c) (i_hard_newline c) (i_image c) (i_code_span c) (i_emphasis c) (i_strikethrough c) (i_text c) (custom_block c) (custom_inline c) (punct_table c) (upper_table c).
(** parser/config.rs:206-214 *)
Definition with_block_heading_v1_behavior (c : config) (v : behavior block) : config :=
  Config (allow_no_space_in_headings c) (html_entities c) (b_blockquote c) (b_github_alert c) (v) (b_heading_v2 c) (b_thematic_break c) (b_list c) (b_code_block c) (b_html_block c) (b_footnote_definition c) (b_link_definition c) (b_table c) (b_paragraph c) (i_autolink c) (i_link c) (i_footnote_reference c) (i_reference_link c) (i_hard_newline c) (i_image c) (i_code_span c) (i_emphasis c) (i_strikethrough c) (i_text c) (custom_block c) (custom_inline c) (punct_table c) (upper_table c).
(** parser/config.rs:217-225 *)
Definition with_block_heading_v2_behavior (c : config) (v : behavior block) : config :=
  Config (allow_no_space_in_headings c) (html_entities c) (b_blockquote c) (b_github_alert c) (b_heading_v1 c) (v) (b_thematic_break c) (b_list c) (b_code_block c) (b_html_block c) (b_footnote_definition c) (b_link_definition c) (b_table c) (b_paragraph c) (i_autolink c) (i_link c) (i_footnote_reference c) (i_reference_link c) (i_hard_newline c) (i_image c) (i_code_span c) (i_emphasis c) (i_strikethrough c) (i_text c) (custom_block c) (custom_inline c) (punct_table c) (upper_table c).
(** parser/config.rs:228-236 *)
Definition with_block_thematic_break_behavior (c : config) (v : behavior block) : config :=
  Config (allow_no_space_in_headings c) (html_entities c) (b_blockquote c) (b_github_alert c) (b_heading_v1 c) (b_heading_v2 c) (v) (b_list c) (b_code_block c) (b_html_block c) (b_footnote_definition c) (b_link_definition c) (b_table c) (b_paragraph c) (i_autolink c) (i_link c) (i_footnote_reference c) (i_reference_link c) (i_hard_newline c) (i_image c) (i_code_span c) (i_emphasis c) (i_strikethrough c) (i_text c) (custom_block c) (custom_inline c) (punct_table c) (upper_table c).
(** parser/config.rs:239-244 *)
Definition with_block_list_behavior (c : config) (v : behavior block) : config :=
  Config (allow_no_space_in_headings c) (html_entities c) (b_blockquote c) (b_github_alert c) (b_heading_v1 c) (b_heading_v2 c) (b_thematic_break c) (v) (b_code_block c) (b_html_block c) (b_footnote_definition c) (b_link_definition c) (b_table c) (b_paragraph c) (i_autolink c) (i_link c) (i_footnote_reference c) (i_reference_link c) (i_hard_newline c) (i_image c) (i_code_span c) (i_emphasis c) (i_strikethrough c) (i_text c) (custom_block c) (custom_inline c) (punct_table c) (upper_table c).
(** parser/config.rs:247-255 *)
Definition with_block_code_block_behavior (c : config) (v : behavior block) : config :=
  Config (allow_no_space_in_headings c) (html_entities c) (b_blockquote c) (b_github_alert c) (b_heading_v1 c) (b_heading_v2 c) (b_thematic_break c) (b_list c) (v) (b_html_block c) (b_footnote_definition c) (b_link_definition c) (b_table c) (b_paragraph c) (i_autolink c) (i_link c) (i_footnote_reference c) (i_reference_link c) (i_hard_newline c) (i_image c) (i_code_span c) (i_emphasis c) (i_strikethrough c) (i_text c) (custom_block c) (custom_inline c) (punct_table c) (upper_table c).
(** parser/config.rs:258-266 *)
Definition with_block_html_block_behavior (c : config) (v : behavior block) : config :=
  Config (allow_no_space_in_headings c) (html_entities c) (b_blockquote c) (b_github_alert c) (b_heading_v1 c) (b_heading_v2 c) (b_thematic_break c) (b_list c) (b_code_block c) (v) (b_footnote_definition c) (b_link_definition c) (b_table c) (b_paragraph c) (i_autolink c) (i_link c) (i_footnote_reference c) (i_reference_link c) (i_hard_newline c) (i_image c) (i_code_span c) (i_emphasis c) (i_strikethrough c) (i_text c) (custom_block c) (custom_inline c) (punct_table c) (upper_table c).
(** parser/config.rs:269-277 *)
Definition with_block_footnote_definition_behavior (c : config) (v : behavior block) : config :=
  Config (allow_no_space_in_headings c) (html_entities c) (b_blockquote c) (b_github_alert c) (b_heading_v1 c) (b_heading_v2 c) (b_thematic_break c) (b_list c) (b_code_block c) (b_html_block c) (v) (b_link_definition c) (b_table c) (b_paragraph c) (i_autolink c) (i_link c) (i_footnote_reference c) (i_reference_link c) (i_hard_newline c) (i_image c) (i_code_span c) (i_emphasis c) (i_strikethrough c) (i_text c) (custom_block c) (custom_inline c) (punct_table c) (upper_table c).
(** parser/config.rs:280-288 *)
Definition with_block_link_definition_behavior (c : config) (v : behavior block) : config :=
  Config (allow_no_space_in_headings c) (html_entities c) (b_blockquote c) (b_github_alert c) (b_heading_v1 c) (b_heading_v2 c) (b_thematic_break c) (b_list c) (b_code_block c) (b_html_block c) (b_footnote_definition c) (v) (b_table c) (b_paragraph c) (i_autolink c) (i_link c) (i_footnote_reference c) (i_reference_link c) (i_hard_newline c) (i_image c) (i_code_span c) (i_emphasis c) (i_strikethrough c) (i_text c) (custom_block c) (custom_inline c) (punct_table c) (upper_table c).
(** parser/config.rs:291-296 *)
Definition with_block_table_behavior (c : config) (v : behavior block) : config :=
  Config (allow_no_space_in_headings c) (html_entities c) (b_blockquote c) (b_github_alert c) (b_heading_v1 c) (b_heading_v2 c) (b_thematic_break c) (b_list c) (b_code_block c) (b_html_block c) (b_footnote_definition c) (b_link_definition c) (v) (b_paragraph c) (i_autolink c) (i_link c) (i_footnote_reference c) (i_reference_link c) (i_hard_newline c) (i_image c) (i_code_span c) (i_emphasis c) (i_strikethrough c) (i_text c) (custom_block c) (custom_inline c) (punct_table c) (upper_table c).
(** parser/config.rs:299-307 *)
Definition with_block_paragraph_behavior (c : config) (v : behavior block) : config :=
  Config (allow_no_space_in_headings c) (html_entities c) (b_blockquote c) (b_github_alert c) (b_heading_v1 c) (b_heading_v2 c) (b_thematic_break c) (b_list c) (b_code_block c) (b_html_block c) (b_footnote_definition c) (b_link_definition c) (b_table c) (v) (i_autolink c) (i_link c) (i_footnote_reference c) (i_reference_link c) (i_hard_newline c) (i_image c) (i_code_span c) (i_emphasis c) (i_strikethrough c) (i_text c) (custom_block c) (custom_inline c) (punct_table c) (upper_table c).
(** parser/config.rs:310-318 *)
Definition with_inline_autolink_behavior (c : config) (v : behavior inline) : config :=
  Config (allow_no_space_in_headings c) (html_entities c) (b_blockquote c) (b_github_alert c) (b_heading_v1 c) (b_heading_v2 c) (b_thematic_break c) (b_list c) (b_code_block c) (b_html_block c) (b_footnote_definition c) (b_link_definition c) (b_table c) (b_paragraph c) (v) (i_link c) (i_footnote_reference c) (i_reference_link c) (i_hard_newline c) (i_image c) (i_code_span c) (i_emphasis c) (i_strikethrough c) (i_text c) (custom_block c) (custom_inline c) (punct_table c) (upper_table c).
(** parser/config.rs:321-326 *)
Definition with_inline_link_behavior (c : config) (v : behavior inline) : config :=
  Config (allow_no_space_in_headings c) (html_entities c) (b_blockquote c) (b_github_alert c) (b_heading_v1 c) (b_heading_v2 c) (b_thematic_break c) (b_list c) (b_code_block c) (b_html_block c) (b_footnote_definition c) (b_link_definition c) (b_table c) (b_paragraph c) (i_autolink c) (v) (i_footnote_reference c) (i_reference_link c) (i_hard_newline c) (i_image c) (i_code_span c) (i_emphasis c) (i_strikethrough c) (i_text c) (custom_block c) (custom_inline c) (punct_table c) (upper_table c).
(** parser/config.rs:329-337 *)
Definition with_inline_footnote_reference_behavior (c : config) (v : behavior inline) : config :=
  Config (allow_no_space_in_headings c) (html_entities c) (b_blockquote c) (b_github_alert c) (b_heading_v1 c) (b_heading_v2 c) (b_thematic_break c) (b_list c) (b_code_block c) (b_html_block c) (b_footnote_definition c) (b_link_definition c) (b_table c) (b_paragraph c) (i_autolink c) (i_link c) (v) (i_reference_link c) (i_hard_newline c) (i_image c) (i_code_span c) (i_emphasis c) (i_strikethrough c) (i_text c) (custom_block c) (custom_inline c) (punct_table c) (upper_table c).
(** parser/config.rs:340-348 *)
Definition with_inline_reference_link_behavior (c : config) (v : behavior inline) : config :=
  Config (allow_no_space_in_headings c) (html_entities c) (b_blockquote c) (b_github_alert c) (b_heading_v1 c) (b_heading_v2 c) (b_thematic_break c) (b_list c) (b_code_block c) (b_html_block c) (b_footnote_definition c) (b_link_definition c) (b_table c) (b_paragraph c) (i_autolink c) (i_link c) (i_footnote_reference c) (v) (i_hard_newline c) (i_image c) (i_code_span c) (i_emphasis c) (i_strikethrough c) (i_text c) (custom_block c) (custom_inline c) (punct_table c) (upper_table c).
(** parser/config.rs:351-359 *)
Definition with_inline_hard_newline_behavior (c : config) (v : behavior inline) : config :=
  Config (allow_no_space_in_headings c) (html_entities c) (b_blockquote c) (b_github_alert c) (b_heading_v1 c) (b_heading_v2 c) (b_thematic_break c) (b_list c) (b_code_block c) (b_html_block c) (b_footnote_definition c) (b_link_definition c) (b_table c) (b_paragraph c) (i_autolink c) (i_link c) (i_footnote_reference c) (i_reference_link c) (v) (i_image c) (i_code_span c) (i_emphasis c) (i_strikethrough c) (i_text c) (custom_block c) (custom_inline c) (punct_table c) (upper_table c).
(** parser/config.rs:362-367 *)
Definition with_inline_image_behavior (c : config) (v : behavior inline) : config :=
  Config (allow_no_space_in_headings c) (html_entities c) (b_blockquote c) (b_github_alert c) (b_heading_v1 c) (b_heading_v2 c) (b_thematic_break c) (b_list c) (b_code_block c) (b_html_block c) (b_footnote_definition c) (b_link_definition c) (b_table c) (b_paragraph c) (i_autolink c) (i_link c) (i_footnote_reference c) (i_reference_link c) (i_hard_newline c) (v) (i_code_span c) (i_emphasis c) (i_strikethrough c) (i_text c) (custom_block c) (custom_inline c) (punct_table c) (upper_table c).
(** parser/config.rs:370-378 *)
Definition with_inline_code_span_behavior (c : config) (v : behavior inline) : config :=
  Config (allow_no_space_in_headings c) (html_entities c) (b_blockquote c) (b_github_alert c) (b_heading_v1 c) (b_heading_v2 c) (b_thematic_break c) (b_list c) (b_code_block c) (b_html_block c) (b_footnote_definition c) (b_link_definition c) (b_table c) (b_paragraph c) (i_autolink c) (i_link c) (i_footnote_reference c) (i_reference_link c) (i_hard_newline c) (i_image c) (v) (i_emphasis c) (i_strikethrough c) (i_text c) (custom_block c) (custom_inline c) (punct_table c) (upper_table c).
(** parser/config.rs:381-389 *)
Definition with_inline_emphasis_behavior (c : config) (v : behavior inline) : config :=
  Config (allow_no_space_in_headings c) (html_entities c) (b_blockquote c) (b_github_alert c) (b_heading_v1 c) (b_heading_v2 c) (b_thematic_break c) (b_list c) (b_code_block c) (b_html_block c) (b_footnote_definition c) (b_link_definition c) (b_table c) (b_paragraph c) (i_autolink c) (i_link c) (i_footnote_reference c) (i_reference_link c) (i_hard_newline c) (i_image c) (i_code_span c) (v) (i_strikethrough c) (i_text c) (custom_block c) (custom_inline c) (punct_table c) (upper_table c).
(** parser/config.rs:392-400 *)
Definition with_inline_strikethrough_behavior (c : config) (v : behavior inline) : config :=
  Config (allow_no_space_in_headings c) (html_entities c) (b_blockquote c) (b_github_alert c) (b_heading_v1 c) (b_heading_v2 c) (b_thematic_break c) (b_list c) (b_code_block c) (b_html_block c) (b_footnote_definition c) (b_link_definition c) (b_table c) (b_paragraph c) (i_autolink c) (i_link c) (i_footnote_reference c) (i_reference_link c) (i_hard_newline c) (i_image c) (i_code_span c) (i_emphasis c) (v) (i_text c) (custom_block c) (custom_inline c) (punct_table c) (upper_table c).
(** parser/config.rs:403-408 *)
Definition with_inline_text_behavior (c : config) (v : behavior inline) : config :=
  Config (allow_no_space_in_headings c) (html_entities c) (b_blockquote c) (b_github_alert c) (b_heading_v1 c) (b_heading_v2 c) (b_thematic_break c) (b_list c) (b_code_block c) (b_html_block c) (b_footnote_definition c) (b_link_definition c) (b_table c) (b_paragraph c) (i_autolink c) (i_link c) (i_footnote_reference c) (i_reference_link c) (i_hard_newline c) (i_image c) (i_code_span c) (i_emphasis c) (i_strikethrough c) (v) (custom_block c) (custom_inline c) (punct_table c) (upper_table c).
(** parser/config.rs:411-416 *)
Definition with_custom_block_parser (c : config) (v : parser (list block)) : config :=
  Config (allow_no_space_in_headings c) (html_entities c) (b_blockquote c) (b_github_alert c) (b_heading_v1 c) (b_heading_v2 c) (b_thematic_break c) (b_list c) (b_code_block c) (b_html_block c) (b_footnote_definition c) (b_link_definition c) (b_table c) (b_paragraph c) (i_autolink c) (i_link c) (i_footnote_reference c) (i_reference_link c) (i_hard_newline c) (i_image c) (i_code_span c) (i_emphasis c) (i_strikethrough c) (i_text c) (Some v) (custom_inline c) (punct_table c) (upper_table c).
(** parser/config.rs:419-424 *)
Definition with_custom_inline_parser (c : config) (v : parser (list inline)) : config :=
  Config (allow_no_space_in_headings c) (html_entities c) (b_blockquote c) (b_github_alert c) (b_heading_v1 c) (b_heading_v2 c) (b_thematic_break c) (b_list c) (b_code_block c) (b_html_block c) (b_footnote_definition c) (b_link_definition c) (b_table c) (b_paragraph c) (i_autolink c) (i_link c) (i_footnote_reference c) (i_reference_link c) (i_hard_newline c) (i_image c) (i_code_span c) (i_emphasis c) (i_strikethrough c) (i_text c) (custom_block c) (Some v) (punct_table c) (upper_table c).
(** one call of a builder method *)
Inductive parser_call :=
| Call_with_allow_no_space_in_headings
| Call_with_html_entities_map (v : str -> option str)
| Call_with_block_blockquote_behavior (v : behavior block)
| Call_with_block_github_alert_behavior (v : behavior block)
| Call_with_block_heading_v1_behavior (v : behavior block)
| Call_with_block_heading_v2_behavior (v : behavior block)
| Call_with_block_thematic_break_behavior (v : behavior block)
| Call_with_block_list_behavior (v : behavior block)
| Call_with_block_code_block_behavior (v : behavior block)
| Call_with_block_html_block_behavior (v : behavior block)
| Call_with_block_footnote_definition_behavior (v : behavior block)
| Call_with_block_link_definition_behavior (v : behavior block)
| Call_with_block_table_behavior (v : behavior block)
| Call_with_block_paragraph_behavior (v : behavior block)
| Call_with_inline_autolink_behavior (v : behavior inline)
| Call_with_inline_link_behavior (v : behavior inline)
| Call_with_inline_footnote_reference_behavior (v : behavior inline)
| Call_with_inline_reference_link_behavior (v : behavior inline)
| Call_with_inline_hard_newline_behavior (v : behavior inline)
| Call_with_inline_image_behavior (v : behavior inline)
| Call_with_inline_code_span_behavior (v : behavior inline)
| Call_with_inline_emphasis_behavior (v : behavior inline)
| Call_with_inline_strikethrough_behavior (v : behavior inline)
| Call_with_inline_text_behavior (v : behavior inline)
| Call_with_custom_block_parser (v : parser (list block))
| Call_with_custom_inline_parser (v : parser (list inline)).
Definition parser_build1 (c : config) (k : parser_call) : config :=
  match k with
  | Call_with_allow_no_space_in_headings => with_allow_no_space_in_headings c
  | Call_with_html_entities_map v => with_html_entities_map c v
  | Call_with_block_blockquote_behavior v => with_block_blockquote_behavior c v
  | Call_with_block_github_alert_behavior v => with_block_github_alert_behavior c v
  | Call_with_block_heading_v1_behavior v => with_block_heading_v1_behavior c v
  | Call_with_block_heading_v2_behavior v => with_block_heading_v2_behavior c v
  | Call_with_block_thematic_break_behavior v => with_block_thematic_break_behavior c v
  | Call_with_block_list_behavior v => with_block_list_behavior c v
  | Call_with_block_code_block_behavior v => with_block_code_block_behavior c v
  | Call_with_block_html_block_behavior v => with_block_html_block_behavior c v
  | Call_with_block_footnote_definition_behavior v => with_block_footnote_definition_behavior c v
  | Call_with_block_link_definition_behavior v => with_block_link_definition_behavior c v
  | Call_with_block_table_behavior v => with_block_table_behavior c v
  | Call_with_block_paragraph_behavior v => with_block_paragraph_behavior c v
  | Call_with_inline_autolink_behavior v => with_inline_autolink_behavior c v
  | Call_with_inline_link_behavior v => with_inline_link_behavior c v
  | Call_with_inline_footnote_reference_behavior v => with_inline_footnote_reference_behavior c v
  | Call_with_inline_reference_link_behavior v => with_inline_reference_link_behavior c v
  | Call_with_inline_hard_newline_behavior v => with_inline_hard_newline_behavior c v
  | Call_with_inline_image_behavior v => with_inline_image_behavior c v
  | Call_with_inline_code_span_behavior v => with_inline_code_span_behavior c v
  | Call_with_inline_emphasis_behavior v => with_inline_emphasis_behavior c v
  | Call_with_inline_strikethrough_behavior v => with_inline_strikethrough_behavior c v
  | Call_with_inline_text_behavior v => with_inline_text_behavior c v
  | Call_with_custom_block_parser v => with_custom_block_parser c v
  | Call_with_custom_inline_parser v => with_custom_inline_parser c v
  end.
Definition parser_build (calls : list parser_call) (c : config) : config := fold_left parser_build1 calls c.

(** ** Markdown printer (methods modelled in MdPrinter.v: printer/config.rs:20-51) *)
Inductive md_call := Call_md_width (v : nat) | Call_md_spaces (v : nat) | Call_md_empty_line (v : bool).
Definition md_build1 (c : md_config) (k : md_call) : md_config :=
  match k with
  | Call_md_width v => with_width c v
  | Call_md_spaces v => with_spaces_before_list_item c v
  | Call_md_empty_line v => with_empty_line_before_list c v
  end.
Definition md_build (calls : list md_call) (c : md_config) : md_config := fold_left md_build1 calls c.
(** ** HTML printer *)
(** html_printer/config.rs:7-14 *)
Definition html_default : html_config := HtmlConfig 80 [].
(** html_printer/config.rs:18-20 *)
Definition html_with_width (c : html_config) (v : nat) : html_config := HtmlConfig v (hc_anchor_prefix c).
(** html_printer/config.rs:23-28 *)
Definition html_with_anchor_prefix (c : html_config) (v : str) : html_config := HtmlConfig (hc_width c) v.
Inductive html_call := Call_html_width (v : nat) | Call_html_prefix (v : str).
Definition html_build1 (c : html_config) (k : html_call) : html_config :=
  match k with Call_html_width v => html_with_width c v | Call_html_prefix v => html_with_anchor_prefix c v end.
Definition html_build (calls : list html_call) (c : html_config) : html_config := fold_left html_build1 calls c.
(** ** LaTeX printer *)
(** latex_printer/config.rs:154-168 *)
Definition latex_default : latex_config := LatexConfig 80 Tabular Verbatim.
(** latex_printer/config.rs:187-189 *)
Definition latex_with_width (c : latex_config) (v : nat) : latex_config := LatexConfig v (lc_table_style c) (lc_code_block_style c).
(** latex_printer/config.rs:208-213 *)
Definition latex_with_table_style (c : latex_config) (v : table_style) : latex_config := LatexConfig (lc_width c) v (lc_code_block_style c).
(** latex_printer/config.rs:232-237 *)
Definition latex_with_code_block_style (c : latex_config) (v : code_block_style) : latex_config := LatexConfig (lc_width c) (lc_table_style c) v.
Inductive latex_call := Call_latex_width (v : nat) | Call_latex_table (v : table_style) | Call_latex_code (v : code_block_style).
Definition latex_build1 (c : latex_config) (k : latex_call) : latex_config :=
  match k with
  | Call_latex_width v => latex_with_width c v
  | Call_latex_table v => latex_with_table_style c v
  | Call_latex_code v => latex_with_code_block_style c v
  end.
Definition latex_build (calls : list latex_call) (c : latex_config) : latex_config := fold_left latex_build1 calls c.

(** ** Specification: the last call that names a setting decides it *)
Definition last_set {C V} (names : C -> option V) (calls : list C) (before : V) : V :=
  fold_left (fun v k => match names k with Some v' => v' | None => v end) calls before.
Lemma last_set_hit {C V} (names : C -> option V) a k b v before : names k = Some v -> Forall (fun k => names k = None) b -> last_set names (a ++ k :: b) before = v.
Proof.
  intros H F. unfold last_set. rewrite fold_left_app. cbn [fold_left]. rewrite H. generalize (Some v). intros _. clear H. induction F as [|x b E F IH]; [reflexivity|]. cbn [fold_left]. now rewrite E.
Qed.
Lemma last_set_none {C V} (names : C -> option V) calls before : Forall (fun k => names k = None) calls -> last_set names calls before = before.
Proof. intros F. unfold last_set. induction F as [|x b E F IH]; [reflexivity|]. cbn [fold_left]. now rewrite E. Qed.
Lemma build_last {R C V} (step : R -> C -> R) (names : C -> option V) (field : R -> V) :
  (forall c k, field (step c k) = match names k with Some v => v | None => field c end) ->
  forall calls c, field (fold_left step calls c) = last_set names calls (field c).
Proof. intros H calls. induction calls as [|k calls IH]; intros c; [reflexivity|]. cbn [fold_left last_set]. rewrite IH. unfold last_set. cbn [fold_left]. now rewrite H. Qed.
Definition names_allow_no_space_in_headings (k : parser_call) : option (bool) := match k with Call_with_allow_no_space_in_headings => Some (true) | _ => None end.
Definition names_html_entities (k : parser_call) : option (str -> option str) := match k with Call_with_html_entities_map v => Some (v) | _ => None end.
Definition names_b_blockquote (k : parser_call) : option (behavior block) := match k with Call_with_block_blockquote_behavior v => Some (v) | _ => None end.
Definition names_b_github_alert (k : parser_call) : option (behavior block) := match k with Call_with_block_github_alert_behavior v => Some (v) | _ => None end.
Definition names_b_heading_v1 (k : parser_call) : option (behavior block) := match k with Call_with_block_heading_v1_behavior v => Some (v) | _ => None end.
Definition names_b_heading_v2 (k : parser_call) : option (behavior block) := match k with Call_with_block_heading_v2_behavior v => Some (v) | _ => None end.
Definition names_b_thematic_break (k : parser_call) : option (behavior block) := match k with Call_with_block_thematic_break_behavior v => Some (v) | _ => None end.
Definition names_b_list (k : parser_call) : option (behavior block) := match k with Call_with_block_list_behavior v => Some (v) | _ => None end.
Definition names_b_code_block (k : parser_call) : option (behavior block) := match k with Call_with_block_code_block_behavior v => Some (v) | _ => None end.
Definition names_b_html_block (k : parser_call) : option (behavior block) := match k with Call_with_block_html_block_behavior v => Some (v) | _ => None end.
Definition names_b_footnote_definition (k : parser_call) : option (behavior block) := match k with Call_with_block_footnote_definition_behavior v => Some (v) | _ => None end.
Definition names_b_link_definition (k : parser_call) : option (behavior block) := match k with Call_with_block_link_definition_behavior v => Some (v) | _ => None end.
Definition names_b_table (k : parser_call) : option (behavior block) := match k with Call_with_block_table_behavior v => Some (v) | _ => None end.
Definition names_b_paragraph (k : parser_call) : option (behavior block) := match k with Call_with_block_paragraph_behavior v => Some (v) | _ => None end.
Definition names_i_autolink (k : parser_call) : option (behavior inline) := match k with Call_with_inline_autolink_behavior v => Some (v) | _ => None end.
Definition names_i_link (k : parser_call) : option (behavior inline) := match k with Call_with_inline_link_behavior v => Some (v) | _ => None end.
Definition names_i_footnote_reference (k : parser_call) : option (behavior inline) := match k with Call_with_inline_footnote_reference_behavior v => Some (v) | _ => None end.
Definition names_i_reference_link (k : parser_call) : option (behavior inline) := match k with Call_with_inline_reference_link_behavior v => Some (v) | _ => None end.
Definition names_i_hard_newline (k : parser_call) : option (behavior inline) := match k with Call_with_inline_hard_newline_behavior v => Some (v) | _ => None end.
Definition names_i_image (k : parser_call) : option (behavior inline) := match k with Call_with_inline_image_behavior v => Some (v) | _ => None end.
Definition names_i_code_span (k : parser_call) : option (behavior inline) := match k with Call_with_inline_code_span_behavior v => Some (v) | _ => None end.
Definition names_i_emphasis (k : parser_call) : option (behavior inline) := match k with Call_with_inline_emphasis_behavior v => Some (v) | _ => None end.
Definition names_i_strikethrough (k : parser_call) : option (behavior inline) := match k with Call_with_inline_strikethrough_behavior v => Some (v) | _ => None end.
Definition names_i_text (k : parser_call) : option (behavior inline) := match k with Call_with_inline_text_behavior v => Some (v) | _ => None end.
Definition names_custom_block (k : parser_call) : option (option (parser (list block))) := match k with Call_with_custom_block_parser v => Some (Some v) | _ => None end.
Definition names_custom_inline (k : parser_call) : option (option (parser (list inline))) := match k with Call_with_custom_inline_parser v => Some (Some v) | _ => None end.
(** which method a call calls *)
Definition method_of (k : parser_call) : nat :=
  match k with
  | Call_with_allow_no_space_in_headings => 0
  | Call_with_html_entities_map _ => 1
  | Call_with_block_blockquote_behavior _ => 2
  | Call_with_block_github_alert_behavior _ => 3
  | Call_with_block_heading_v1_behavior _ => 4
  | Call_with_block_heading_v2_behavior _ => 5
  | Call_with_block_thematic_break_behavior _ => 6
  | Call_with_block_list_behavior _ => 7
  | Call_with_block_code_block_behavior _ => 8
  | Call_with_block_html_block_behavior _ => 9
  | Call_with_block_footnote_definition_behavior _ => 10
  | Call_with_block_link_definition_behavior _ => 11
  | Call_with_block_table_behavior _ => 12
  | Call_with_block_paragraph_behavior _ => 13
  | Call_with_inline_autolink_behavior _ => 14
  | Call_with_inline_link_behavior _ => 15
  | Call_with_inline_footnote_reference_behavior _ => 16
  | Call_with_inline_reference_link_behavior _ => 17
  | Call_with_inline_hard_newline_behavior _ => 18
  | Call_with_inline_image_behavior _ => 19
  | Call_with_inline_code_span_behavior _ => 20
  | Call_with_inline_emphasis_behavior _ => 21
  | Call_with_inline_strikethrough_behavior _ => 22
  | Call_with_inline_text_behavior _ => 23
  | Call_with_custom_block_parser _ => 24
  | Call_with_custom_inline_parser _ => 25
  end.
