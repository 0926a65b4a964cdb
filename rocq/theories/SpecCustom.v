(** Custom parsers (specification for C75). *)
From Coq Require Import String.
From Verif Require Export SpecInline.
Import ListNotations.
Open Scope list_scope.

(** what a custom parser, if there is one, answers on a text *)
Definition answer {A} (o : option (parser A)) (s : str) : res A :=
  match o with Some p => p s | None => Err end.
(** two configurations that differ in their custom parsers only *)
Definition same_but_custom (c c' : config) : Prop :=
  allow_no_space_in_headings c' = allow_no_space_in_headings c /\ html_entities c' = html_entities c /\
  punct_table c' = punct_table c /\ upper_table c' = upper_table c /\
  b_blockquote c' = b_blockquote c /\ b_github_alert c' = b_github_alert c /\
  b_heading_v1 c' = b_heading_v1 c /\ b_heading_v2 c' = b_heading_v2 c /\
  b_thematic_break c' = b_thematic_break c /\ b_list c' = b_list c /\ b_code_block c' = b_code_block c /\
  b_html_block c' = b_html_block c /\ b_footnote_definition c' = b_footnote_definition c /\
  b_link_definition c' = b_link_definition c /\ b_table c' = b_table c /\ b_paragraph c' = b_paragraph c /\
  i_autolink c' = i_autolink c /\ i_link c' = i_link c /\ i_footnote_reference c' = i_footnote_reference c /\
  i_reference_link c' = i_reference_link c /\ i_hard_newline c' = i_hard_newline c /\ i_image c' = i_image c /\
  i_code_span c' = i_code_span c /\ i_emphasis c' = i_emphasis c /\ i_strikethrough c' = i_strikethrough c /\
  i_text c' = i_text c.
(** written with the characters of the document (and line feeds) *)
Definition written_in (s t : str) : Prop := forall c, In c t -> In c s \/ c = 10%N.
(** a character no built-in block begins with *)
Definition fresh (c : char) : Prop :=
  is_digit c = false /\ ~ In c (32%N :: 9%N :: 10%N :: 13%N :: lit "`~#=-_*+>|<[").
