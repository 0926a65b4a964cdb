(** Specification for C100: which characters a construct cannot do without. *)
From Coq Require Import String.
From Verif Require Export SpecParser.
Import ListNotations.
Open Scope list_scope.

(** none of the characters [cs] occurs in [s] *)
Definition lacks (s cs : str) : Prop := forall c, In c cs -> ~ In c s.
(** two switches that agree, or whose construct the source [s] cannot contain:
    the construct needs a character out of each of the sets [needed], and [s] has
    none of one of the sets *)
Definition agree {B} (s : str) (needed : list str) (b b' : behavior B) : Prop :=
  b' = b \/ exists cs, In cs needed /\ lacks s cs.
(** no code block: no fence character, no tab, no four spaces in a row *)
Definition no_code_block (s : str) : Prop :=
  lacks s (c_tab :: lit "`~") /\ forall a b, s <> a ++ lit "    " ++ b.

(** [c] and [c'] agree on everything the source [s] can make use of.  (Texts,
    paragraphs, setext headings and line breaks can occur in every source.) *)
Record agree_on (s : str) (c c' : config) : Prop := {
  ag_entities : html_entities c' = html_entities c \/ lacks s (lit "&") \/ lacks s (lit ";");
  ag_punct : punct_table c' = punct_table c;
  ag_upper : upper_table c' = upper_table c;
  ag_custom_block : custom_block c' = custom_block c;
  ag_custom_inline : custom_inline c' = custom_inline c;
  ag_text : i_text c' = i_text c;
  ag_paragraph : b_paragraph c' = b_paragraph c;
  ag_setext : b_heading_v2 c' = b_heading_v2 c;
  ag_newline : i_hard_newline c' = i_hard_newline c;
  ag_no_space : allow_no_space_in_headings c' = allow_no_space_in_headings c \/ lacks s (lit "#");
  ag_heading : agree s [lit "#"] (b_heading_v1 c) (b_heading_v1 c');
  ag_quote : agree s [lit ">"] (b_blockquote c) (b_blockquote c');
  ag_alert : agree s [lit ">"] (b_github_alert c) (b_github_alert c');
  ag_thematic : agree s [lit "-_*"] (b_thematic_break c) (b_thematic_break c');
  ag_list : agree s [lit "*+-0123456789"; lit "*+-.)"] (b_list c) (b_list c');
  ag_code_block : b_code_block c' = b_code_block c \/ no_code_block s;
  ag_html : agree s [lit "<"] (b_html_block c) (b_html_block c');
  ag_footnote : agree s [lit "["; lit "^"; lit "]"; lit ":"] (b_footnote_definition c) (b_footnote_definition c');
  ag_definition : agree s [lit "["; lit "]"; lit ":"] (b_link_definition c) (b_link_definition c');
  ag_table : agree s [lit "|"; lit "-"] (b_table c) (b_table c');
  ag_autolink : agree s [lit "<"; lit ">"; lit ":@"] (i_autolink c) (i_autolink c');
  ag_link : agree s [lit "["; lit "]"; lit "("; lit ")"] (i_link c) (i_link c');
  ag_footnote_ref : agree s [lit "["; lit "^"; lit "]"] (i_footnote_reference c) (i_footnote_reference c');
  ag_reference : agree s [lit "["; lit "]"] (i_reference_link c) (i_reference_link c');
  ag_image : agree s [lit "!"; lit "["; lit "]"; lit "("; lit ")"] (i_image c) (i_image c');
  ag_code_span : agree s [lit "`"] (i_code_span c) (i_code_span c');
  ag_emphasis : agree s [lit "*_"] (i_emphasis c) (i_emphasis c');
  ag_strike : agree s [lit "~"] (i_strikethrough c) (i_strikethrough c')
}.
