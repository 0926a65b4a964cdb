(** Property C73: the configuration builders.  Specification: [last_set names calls before]
    (ConfigBuild.v) is the value in the last of the [calls] that names the setting ([last_set_hit]), and
    [before] if none does ([last_set_none]); [names_x k] says which value the call [k] gives to the setting
    [x].  Generated by tools/gen_config.py. *)
From Coq Require Import String List.
From Verif Require Import ConfigBuild ParserBlock.
Import ListNotations. Open Scope list_scope.

(** Whatever is called, in whatever order and how often: every setting has the value of the last
    call of its own method, or the one it had before. *)
Theorem C73_parser_settings : forall calls c, let r := parser_build calls c in
  allow_no_space_in_headings r = last_set names_allow_no_space_in_headings calls (allow_no_space_in_headings c) /\
  html_entities r = last_set names_html_entities calls (html_entities c) /\
  b_blockquote r = last_set names_b_blockquote calls (b_blockquote c) /\
  b_github_alert r = last_set names_b_github_alert calls (b_github_alert c) /\
  b_heading_v1 r = last_set names_b_heading_v1 calls (b_heading_v1 c) /\
  b_heading_v2 r = last_set names_b_heading_v2 calls (b_heading_v2 c) /\
  b_thematic_break r = last_set names_b_thematic_break calls (b_thematic_break c) /\
  b_list r = last_set names_b_list calls (b_list c) /\
  b_code_block r = last_set names_b_code_block calls (b_code_block c) /\
  b_html_block r = last_set names_b_html_block calls (b_html_block c) /\
  b_footnote_definition r = last_set names_b_footnote_definition calls (b_footnote_definition c) /\
  b_link_definition r = last_set names_b_link_definition calls (b_link_definition c) /\
  b_table r = last_set names_b_table calls (b_table c) /\
  b_paragraph r = last_set names_b_paragraph calls (b_paragraph c) /\
  i_autolink r = last_set names_i_autolink calls (i_autolink c) /\
  i_link r = last_set names_i_link calls (i_link c) /\
  i_footnote_reference r = last_set names_i_footnote_reference calls (i_footnote_reference c) /\
  i_reference_link r = last_set names_i_reference_link calls (i_reference_link c) /\
  i_hard_newline r = last_set names_i_hard_newline calls (i_hard_newline c) /\
  i_image r = last_set names_i_image calls (i_image c) /\
  i_code_span r = last_set names_i_code_span calls (i_code_span c) /\
  i_emphasis r = last_set names_i_emphasis calls (i_emphasis c) /\
  i_strikethrough r = last_set names_i_strikethrough calls (i_strikethrough c) /\
  i_text r = last_set names_i_text calls (i_text c) /\
  custom_block r = last_set names_custom_block calls (custom_block c) /\
  custom_inline r = last_set names_custom_inline calls (custom_inline c) /\
  punct_table r = punct_table c /\ upper_table r = upper_table c.
Proof.
  intros calls c. cbv zeta. unfold parser_build.

  apply conj; [apply (build_last parser_build1 names_allow_no_space_in_headings allow_no_space_in_headings); intros c0 k; destruct k; reflexivity|].
  apply conj; [apply (build_last parser_build1 names_html_entities html_entities); intros c0 k; destruct k; reflexivity|].
  apply conj; [apply (build_last parser_build1 names_b_blockquote b_blockquote); intros c0 k; destruct k; reflexivity|].
  apply conj; [apply (build_last parser_build1 names_b_github_alert b_github_alert); intros c0 k; destruct k; reflexivity|].
  apply conj; [apply (build_last parser_build1 names_b_heading_v1 b_heading_v1); intros c0 k; destruct k; reflexivity|].
  apply conj; [apply (build_last parser_build1 names_b_heading_v2 b_heading_v2); intros c0 k; destruct k; reflexivity|].
  apply conj; [apply (build_last parser_build1 names_b_thematic_break b_thematic_break); intros c0 k; destruct k; reflexivity|].
  apply conj; [apply (build_last parser_build1 names_b_list b_list); intros c0 k; destruct k; reflexivity|].
  apply conj; [apply (build_last parser_build1 names_b_code_block b_code_block); intros c0 k; destruct k; reflexivity|].
  apply conj; [apply (build_last parser_build1 names_b_html_block b_html_block); intros c0 k; destruct k; reflexivity|].
  apply conj; [apply (build_last parser_build1 names_b_footnote_definition b_footnote_definition); intros c0 k; destruct k; reflexivity|].
  apply conj; [apply (build_last parser_build1 names_b_link_definition b_link_definition); intros c0 k; destruct k; reflexivity|].
  apply conj; [apply (build_last parser_build1 names_b_table b_table); intros c0 k; destruct k; reflexivity|].
  apply conj; [apply (build_last parser_build1 names_b_paragraph b_paragraph); intros c0 k; destruct k; reflexivity|].
  apply conj; [apply (build_last parser_build1 names_i_autolink i_autolink); intros c0 k; destruct k; reflexivity|].
  apply conj; [apply (build_last parser_build1 names_i_link i_link); intros c0 k; destruct k; reflexivity|].
  apply conj; [apply (build_last parser_build1 names_i_footnote_reference i_footnote_reference); intros c0 k; destruct k; reflexivity|].
  apply conj; [apply (build_last parser_build1 names_i_reference_link i_reference_link); intros c0 k; destruct k; reflexivity|].
  apply conj; [apply (build_last parser_build1 names_i_hard_newline i_hard_newline); intros c0 k; destruct k; reflexivity|].
  apply conj; [apply (build_last parser_build1 names_i_image i_image); intros c0 k; destruct k; reflexivity|].
  apply conj; [apply (build_last parser_build1 names_i_code_span i_code_span); intros c0 k; destruct k; reflexivity|].
  apply conj; [apply (build_last parser_build1 names_i_emphasis i_emphasis); intros c0 k; destruct k; reflexivity|].
  apply conj; [apply (build_last parser_build1 names_i_strikethrough i_strikethrough); intros c0 k; destruct k; reflexivity|].
  apply conj; [apply (build_last parser_build1 names_i_text i_text); intros c0 k; destruct k; reflexivity|].
  apply conj; [apply (build_last parser_build1 names_custom_block custom_block); intros c0 k; destruct k; reflexivity|].
  apply conj; [apply (build_last parser_build1 names_custom_inline custom_inline); intros c0 k; destruct k; reflexivity|].
  split.
  - revert c. induction calls as [|k calls IH]; intros c; [reflexivity|]. cbn [fold_left]. rewrite IH. now destruct k.
  - revert c. induction calls as [|k calls IH]; intros c; [reflexivity|]. cbn [fold_left]. rewrite IH. now destruct k.
Qed.
Print Assumptions C73_parser_settings.
(** Calls of different methods can be exchanged ... *)
Theorem C73_parser_exchange : forall k1 k2, method_of k1 <> method_of k2 -> forall a b c,
  parser_build (a ++ k1 :: k2 :: b) c = parser_build (a ++ k2 :: k1 :: b) c.
Proof.
  intros k1 k2 N a b c. unfold parser_build. rewrite !fold_left_app. cbn [fold_left]. f_equal. generalize (fold_left parser_build1 a c). intros r.
  destruct k1, k2; try reflexivity; exfalso; now apply N.
Qed.
Print Assumptions C73_parser_exchange.
(** ... and only the last call of a method counts, whatever is called in between. *)
Theorem C73_parser_override : forall k1 k2, method_of k1 = method_of k2 -> forall a m b c,
  parser_build (a ++ k1 :: m ++ k2 :: b) c = parser_build (a ++ m ++ k2 :: b) c.
Proof.
  intros k1 k2 E a m b c. unfold parser_build. rewrite !fold_left_app. cbn [fold_left]. rewrite !fold_left_app. cbn [fold_left]. f_equal. generalize (fold_left parser_build1 a c). intros r. clear c a b.
  assert (S : forall r, parser_build1 (parser_build1 r k1) k2 = parser_build1 r k2) by (intros r'; destruct k1, k2; try discriminate E; reflexivity).
  revert r. induction m as [|k m IH]; intros r; cbn [fold_left]; [apply S|].
  destruct (Nat.eq_dec (method_of k) (method_of k1)) as [X|X].
  - assert (Y : parser_build1 (parser_build1 r k1) k = parser_build1 r k) by (destruct k1, k; try discriminate X; reflexivity). now rewrite Y.
  - assert (Y : parser_build1 (parser_build1 r k1) k = parser_build1 (parser_build1 r k) k1) by (destruct k1, k; try reflexivity; exfalso; now apply X). rewrite Y. apply IH.
Qed.
Print Assumptions C73_parser_override.
Theorem C73_markdown_settings : forall calls c, let r := md_build calls c in
  md_width r = last_set (fun k => match k with Call_md_width v => Some v | _ => None end) calls (md_width c) /\
  md_spaces_before_list_item r = last_set (fun k => match k with Call_md_spaces v => Some v | _ => None end) calls (md_spaces_before_list_item c) /\
  md_empty_line_before_list r = last_set (fun k => match k with Call_md_empty_line v => Some v | _ => None end) calls (md_empty_line_before_list c).
Proof. intros calls c. cbv zeta. unfold md_build. split; [|split]; apply build_last; intros c0 k; destruct k; reflexivity. Qed.
Print Assumptions C73_markdown_settings.
Theorem C73_html_settings : forall calls c, let r := html_build calls c in
  hc_width r = last_set (fun k => match k with Call_html_width v => Some v | _ => None end) calls (hc_width c) /\
  hc_anchor_prefix r = last_set (fun k => match k with Call_html_prefix v => Some v | _ => None end) calls (hc_anchor_prefix c).
Proof. intros calls c. cbv zeta. unfold html_build. split; apply build_last; intros c0 k; destruct k; reflexivity. Qed.
Print Assumptions C73_html_settings.
Theorem C73_latex_settings : forall calls c, let r := latex_build calls c in
  lc_width r = last_set (fun k => match k with Call_latex_width v => Some v | _ => None end) calls (lc_width c) /\
  lc_table_style r = last_set (fun k => match k with Call_latex_table v => Some v | _ => None end) calls (lc_table_style c) /\
  lc_code_block_style r = last_set (fun k => match k with Call_latex_code v => Some v | _ => None end) calls (lc_code_block_style c).
Proof. intros calls c. cbv zeta. unfold latex_build. split; [|split]; apply build_last; intros c0 k; destruct k; reflexivity. Qed.
Print Assumptions C73_latex_settings.
(** the heading option cannot be taken back, every other setting can *)
Theorem C73_no_space_stays : forall calls c, allow_no_space_in_headings c = true -> allow_no_space_in_headings (parser_build calls c) = true.
Proof. intros calls. induction calls as [|k calls IH]; intros c H; [exact H|]. apply IH. now destruct k. Qed.
Print Assumptions C73_no_space_stays.
Example C73_nonvacuous : md_build [Call_md_width 10; Call_md_spaces 3; Call_md_width 20] md_default = MdConfig 20 3 true /\
  (let c := parser_build [Call_with_block_table_behavior Ignore; Call_with_allow_no_space_in_headings; Call_with_block_table_behavior Skip] (default_config (fun _ => None) (fun _ => false) (fun c => [c])) in
   b_table c = Skip /\ allow_no_space_in_headings c = true /\ b_list c = Parse).
Proof. repeat split. Qed.
