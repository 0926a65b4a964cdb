(** Consumption and fuel-independence of the block parser. *)
From Coq Require Import String.
From Verif Require Export ParserBlock ParserInlineFacts.
Import ListNotations.
Open Scope list_scope.
Local Notation len := (@List.length _).

Lemma eats_thematic : eats true p_thematic_break. Proof. unfold p_thematic_break; eats. Qed.
Lemma rel_thematic : forall n, rel n p_thematic_break p_thematic_break. Proof. intro; unfold p_thematic_break; rel. Qed.
#[export] Hint Resolve eats_thematic rel_thematic : pars.
Lemma eats_ending_fence : forall f, eats false (p_ending_fence f). Proof. intro; unfold p_ending_fence; eats. Qed.
Lemma rel_ending_fence : forall n f, rel n (p_ending_fence f) (p_ending_fence f). Proof. intros; unfold p_ending_fence; rel. Qed.
#[export] Hint Resolve eats_ending_fence rel_ending_fence : pars.
Lemma eats_code_indented : eats true p_code_block_indented. Proof. unfold p_code_block_indented; eats. Qed.
Lemma rel_code_indented : forall n, rel n p_code_block_indented p_code_block_indented. Proof. intro; unfold p_code_block_indented; rel. Qed.
Lemma eats_code_fenced : eats true p_code_block_fenced. Proof. unfold p_code_block_fenced; eats. Qed.
Lemma rel_code_fenced : forall n, rel n p_code_block_fenced p_code_block_fenced. Proof. intro; unfold p_code_block_fenced; rel. Qed.
#[export] Hint Resolve eats_code_indented rel_code_indented eats_code_fenced rel_code_fenced : pars.
Lemma eats_code_block : eats true p_code_block. Proof. unfold p_code_block; eats. Qed.
Lemma rel_code_block : forall n, rel n p_code_block p_code_block. Proof. intro; unfold p_code_block; rel. Qed.
#[export] Hint Resolve eats_code_block rel_code_block : pars.
Lemma eats_heading_v1 : forall cfg, eats true (p_heading_v1 cfg). Proof. intro; unfold p_heading_v1; eats. Qed.
Lemma rel_nested_safe : forall A (p : parser A), (forall n, rel n p p) -> forall n c, rel n (nested p c) (nested p c).
Proof. intros A p H n c. eapply rel_nested; [apply H|apply Nat.le_refl]. Qed.
Lemma rel_heading_v1 : forall cfg, custom_ok cfg -> forall n, rel n (p_heading_v1 cfg) (p_heading_v1 cfg).
Proof.
  intros cfg Hc n; unfold p_heading_v1.
  pose proof (rel_nested_safe _ _ (rel_inline_many0 cfg Hc)). rel.
Qed.
Lemma eats_level : eats true p_heading_v2_level. Proof. unfold p_heading_v2_level; eats. Qed.
Lemma rel_level : forall n, rel n p_heading_v2_level p_heading_v2_level. Proof. intro; unfold p_heading_v2_level; rel. Qed.
#[export] Hint Resolve eats_heading_v1 rel_heading_v1 eats_level rel_level : pars.
Lemma eats_olw : eats true p_one_line_whitespace1. Proof. unfold p_one_line_whitespace1; eats. Qed.
Lemma rel_olw : forall n, rel n p_one_line_whitespace1 p_one_line_whitespace1. Proof. intro; unfold p_one_line_whitespace1; rel. Qed.
#[export] Hint Resolve eats_olw rel_olw : pars.
Lemma eats_linkdef : forall cfg, eats true (p_link_definition cfg). Proof. intro; unfold p_link_definition; eats. Qed.
Lemma rel_linkdef : forall cfg, custom_ok cfg -> forall n, rel n (p_link_definition cfg) (p_link_definition cfg).
Proof.
  intros cfg Hc n; unfold p_link_definition.
  pose proof (rel_link_label n _ _ (fun m _ => rel_inline_many1 cfg Hc m)). rel.
Qed.
#[export] Hint Resolve eats_linkdef rel_linkdef : pars.

Lemma eats_until : forall A (p : parser A), eats false (p_until p). Proof. intros; unfold p_until; eats. Qed.
Lemma rel_until : forall A (p : parser A) n, rel n p p -> rel n (p_until p) (p_until p). Proof. intros; unfold p_until; rel. Qed.
#[export] Hint Resolve eats_until : pars.
Ltac rel_u := repeat first [apply rel_until | progress unf_goal | rel1].
Lemma eats_html1 : eats true p_html_block1. Proof. unfold p_html_block1; eats. Qed.
Lemma rel_html1 : forall n, rel n p_html_block1 p_html_block1. Proof. intro; unfold p_html_block1; cbv zeta; rel_u. Qed.
Lemma eats_html2 : eats true p_html_block2. Proof. unfold p_html_block2; eats. Qed.
Lemma rel_html2 : forall n, rel n p_html_block2 p_html_block2. Proof. intro; unfold p_html_block2; cbv zeta; rel_u. Qed.
Lemma eats_html3 : eats true p_html_block3. Proof. unfold p_html_block3; eats. Qed.
Lemma rel_html3 : forall n, rel n p_html_block3 p_html_block3. Proof. intro; unfold p_html_block3; cbv zeta; rel_u. Qed.
Lemma eats_html4 : eats true p_html_block4. Proof. unfold p_html_block4; eats. Qed.
Lemma rel_html4 : forall n, rel n p_html_block4 p_html_block4. Proof. intro; unfold p_html_block4; cbv zeta; rel_u. Qed.
Lemma eats_html5 : eats true p_html_block5. Proof. unfold p_html_block5; eats. Qed.
Lemma rel_html5 : forall n, rel n p_html_block5 p_html_block5. Proof. intro; unfold p_html_block5; cbv zeta; rel_u. Qed.
Lemma eats_tags : forall l, eats false (alt (map tag_no_case l)).
Proof. intro l. apply eats_alt. apply Forall_forall. intros p H. apply in_map_iff in H as (t & <- & _). apply eats_tag_any. Qed.
Lemma rel_tags : forall n l, rel n (alt (map tag_no_case l)) (alt (map tag_no_case l)).
Proof. intros n l. apply rel_alt. induction l; cbn [map]; constructor; [apply rel_tag_by|assumption]. Qed.
#[export] Hint Resolve eats_tags rel_tags : pars.
Lemma eats_html6 : eats true p_html_block6. Proof. unfold p_html_block6; set (l := html_block6_tags). pose proof (eats_tags l). set (q := alt (map tag_no_case l)) in *. eats. Qed.
Lemma rel_html6 : forall n, rel n p_html_block6 p_html_block6.
Proof.
  intro; unfold p_html_block6; cbv zeta. set (l := html_block6_tags).
  pose proof (eats_tags l). pose proof (rel_tags n l). set (q := alt (map tag_no_case l)) in *. rel_u.
Qed.
Lemma eats_tag_name : eats true p_html_tag_name. Proof. unfold p_html_tag_name; eats. Qed.
Lemma rel_tag_name : forall n, rel n p_html_tag_name p_html_tag_name. Proof. intro; unfold p_html_tag_name; rel. Qed.
Lemma eats_attr_value : eats true p_attr_value. Proof. unfold p_attr_value, p_attr_unquoted, p_attr_single, p_attr_double; eats. Qed.
Lemma rel_attr_value : forall n, rel n p_attr_value p_attr_value. Proof. intro; unfold p_attr_value, p_attr_unquoted, p_attr_single, p_attr_double; rel. Qed.
#[export] Hint Resolve eats_tag_name rel_tag_name eats_attr_value rel_attr_value : pars.
Lemma eats_attr : eats true p_html_tag_attribute. Proof. unfold p_html_tag_attribute, p_attr_name, p_attr_value_spec; eats. Qed.
Lemma rel_attr : forall n, rel n p_html_tag_attribute p_html_tag_attribute. Proof. intro; unfold p_html_tag_attribute, p_attr_name, p_attr_value_spec; rel. Qed.
#[export] Hint Resolve eats_attr rel_attr : pars.
Lemma eats_open_html : forall l, eats true (p_open_html_tag l). Proof. intro; unfold p_open_html_tag; eats. Qed.
Lemma rel_open_html : forall n l, rel n (p_open_html_tag l) (p_open_html_tag l). Proof. intros; unfold p_open_html_tag; rel. Qed.
Lemma eats_close_html : eats true p_closing_html_tag. Proof. unfold p_closing_html_tag; eats. Qed.
Lemma rel_close_html : forall n, rel n p_closing_html_tag p_closing_html_tag. Proof. intro; unfold p_closing_html_tag; rel. Qed.
#[export] Hint Resolve eats_open_html rel_open_html eats_close_html rel_close_html : pars.
Lemma eats_html7 : eats true p_html_block7. Proof. unfold p_html_block7; eats. Qed.
Lemma rel_html7 : forall n, rel n p_html_block7 p_html_block7. Proof. intro; unfold p_html_block7; cbv zeta; rel_u. Qed.
#[export] Hint Resolve eats_html1 rel_html1 eats_html2 rel_html2 eats_html3 rel_html3 eats_html4 rel_html4
  eats_html5 rel_html5 eats_html6 rel_html6 eats_html7 rel_html7 : pars.
Lemma eats_html_block : eats true p_html_block. Proof. unfold p_html_block; eats. Qed.
Lemma rel_html_block : forall n, rel n p_html_block p_html_block. Proof. intro; unfold p_html_block; rel. Qed.
#[export] Hint Resolve eats_html_block rel_html_block : pars.

Lemma eats_cell_chars : eats true p_cell_chars. Proof. unfold p_cell_chars; eats. Qed.
Lemma rel_cell_chars : forall n, rel n p_cell_chars p_cell_chars. Proof. intro; unfold p_cell_chars; rel. Qed.
#[export] Hint Resolve eats_cell_chars rel_cell_chars : pars.
Lemma eats_cell : forall cfg, eats true (p_cell_content cfg). Proof. intro; unfold p_cell_content; eats. Qed.
Lemma rel_cell : forall cfg, custom_ok cfg -> forall n, rel n (p_cell_content cfg) (p_cell_content cfg).
Proof. intros cfg Hc n; unfold p_cell_content. pose proof (rel_nested_safe _ _ (rel_inline_many0 cfg Hc)). rel. Qed.
#[export] Hint Resolve eats_cell rel_cell : pars.
Lemma eats_row : forall cfg, eats true (p_table_row cfg). Proof. intro; unfold p_table_row; eats. Qed.
Lemma rel_row : forall cfg, custom_ok cfg -> forall n, rel n (p_table_row cfg) (p_table_row cfg). Proof. intros; unfold p_table_row; rel. Qed.
#[export] Hint Resolve eats_row rel_row : pars.
Lemma eats_alrow : eats true p_alignment_row. Proof. unfold p_alignment_row; eats. Qed.
Lemma rel_alrow : forall n, rel n p_alignment_row p_alignment_row. Proof. intros; unfold p_alignment_row; rel. Qed.
#[export] Hint Resolve eats_alrow rel_alrow : pars.
Lemma eats_table : forall cfg, eats true (p_table cfg). Proof. intro; unfold p_table; eats. Qed.
Lemma rel_table : forall cfg, custom_ok cfg -> forall n, rel n (p_table cfg) (p_table cfg). Proof. intros; unfold p_table; rel. Qed.
#[export] Hint Resolve eats_table rel_table : pars.

Lemma eats_consumed : forall A k (p : parser A), eats k p -> eats k (consumed p).
Proof. intros A k p H s r a E. unfold consumed in E. destruct (p s) eqn:E1; try discriminate. injection E as <- <-. exact (H _ _ _ E1). Qed.
Lemma rel_consumed : forall A n (p : parser A), rel n p p -> rel n (consumed p) (consumed p).
Proof. intros A n p H s Hs. unfold consumed. split; [reflexivity|]. destruct (H s Hs) as [_ N]. destruct (p s); congruence. Qed.
Lemma eats_task : eats true p_task_state. Proof. unfold p_task_state; eats. Qed.
Lemma rel_task : forall n, rel n p_task_state p_task_state. Proof. intros; unfold p_task_state; rel. Qed.
Lemma eats_marker : eats true p_list_marker.
Proof. unfold p_list_marker, p_marker_ordered, p_marker_star, p_marker_plus, p_marker_dash; eats. Qed.
Lemma rel_marker : forall n, rel n p_list_marker p_list_marker.
Proof. intro; unfold p_list_marker, p_marker_ordered, p_marker_star, p_marker_plus, p_marker_dash; rel. Qed.
Lemma eats_marker_kind : forall k, eats true (p_marker_of_kind k).
Proof. intros [?|[]]; unfold p_marker_of_kind, p_marker_ordered, p_marker_star, p_marker_plus, p_marker_dash; eats. Qed.
Lemma rel_marker_kind : forall n k, rel n (p_marker_of_kind k) (p_marker_of_kind k).
Proof. intros n [?|[]]; unfold p_marker_of_kind, p_marker_ordered, p_marker_star, p_marker_plus, p_marker_dash; rel. Qed.
#[export] Hint Resolve eats_task rel_task eats_marker rel_marker eats_marker_kind rel_marker_kind : pars.
Ltac eats_c := unf_goal; cbv beta zeta; repeat first [apply eats_consumed | progress unf_goal | eats1].
Ltac rel_c := unf_goal; cbv beta zeta; repeat first [apply rel_consumed | progress unf_goal | rel1].
Lemma eats_marker_spaces : eats true p_marker_spaces.
Proof. unfold p_marker_spaces. apply eats_bind_l; [eats_c|]. intros [? ?]. eats. Qed.
Lemma rel_marker_spaces : forall n, rel n p_marker_spaces p_marker_spaces.
Proof. intro; unfold p_marker_spaces. apply rel_bind; [eats_c|rel_c|]. intros [? ?]. rel. Qed.
Lemma eats_marker_newline : eats true p_marker_newline.
Proof. unfold p_marker_newline. apply eats_bind_l; [eats_c|]. intros [? ?]. apply eats_or_else; [eats|]. apply eats_bind_f; [eats_c|]. intros [? ?]. eats. Qed.
Lemma rel_marker_newline : forall n, rel n p_marker_newline p_marker_newline.
Proof.
  intro; unfold p_marker_newline. apply rel_bind; [eats_c|rel_c|]. intros [? ?].
  apply rel_or_else; [rel|]. apply rel_bind; [eats_c|rel_c|]. intros [? ?]. rel.
Qed.
#[export] Hint Resolve eats_marker_spaces rel_marker_spaces eats_marker_newline rel_marker_newline : pars.
Lemma eats_marker_span : eats true p_marker_with_span. Proof. unfold p_marker_with_span; eats. Qed.
Lemma rel_marker_span : forall n, rel n p_marker_with_span p_marker_with_span. Proof. intro; unfold p_marker_with_span; rel. Qed.
#[export] Hint Resolve eats_marker_span rel_marker_span : pars.
Lemma eats_rest_line : forall k m, eats false (p_rest_line k m).
Proof.
  intros k m s r a E. unfold p_rest_line in E. destruct s as [|c s]; [discriminate|]. revert E.
  generalize (c :: s). intros s'. intro E. revert s' r a E.
  match goal with |- forall s' r a, ?p s' = _ -> _ => change (eats false p) end. eats.
Qed.
Lemma rel_rest_line : forall n k m, rel n (p_rest_line k m) (p_rest_line k m).
Proof.
  intros n k m s Hs. split; [reflexivity|]. unfold p_rest_line. destruct s as [|c s]; [discriminate|].
  revert Hs. generalize (c :: s) as s'. intros s' Hs.
  match goal with |- ?p s' <> _ => assert (X : rel n p p) end; [rel|]. now apply X.
Qed.
#[export] Hint Resolve eats_rest_line rel_rest_line : pars.
Lemma eats_item_lines : eats true p_list_item_lines.
Proof. unfold p_list_item_lines; eats. Qed.
Lemma rel_item_lines : forall n, rel n p_list_item_lines p_list_item_lines.
Proof. intro; unfold p_list_item_lines; rel. Qed.
Lemma eats_quote_lines : eats true p_quote_lines. Proof. unfold p_quote_lines, p_quote_prefix; eats. Qed.
Lemma rel_quote_lines : forall n, rel n p_quote_lines p_quote_lines. Proof. intro; unfold p_quote_lines, p_quote_prefix; rel. Qed.
Lemma eats_footnote_lines : eats true p_footnote_lines. Proof. unfold p_footnote_lines; eats. Qed.
Lemma rel_footnote_lines : forall n, rel n p_footnote_lines p_footnote_lines. Proof. intro; unfold p_footnote_lines; rel. Qed.
#[export] Hint Resolve eats_item_lines rel_item_lines eats_quote_lines rel_quote_lines eats_footnote_lines rel_footnote_lines : pars.

(** ** The content of a container is shorter than the container *)
Definition total (l : list str) : nat := fold_right (fun x n => S (len x) + n) 0 l.
Lemma total_cons : forall x l, total (x :: l) = S (len x) + total l. Proof. reflexivity. Qed.
Lemma total_nil : total [] = 0. Proof. reflexivity. Qed.
Arguments total : simpl never.
Lemma join_total : forall l, len (join [c_nl] l) <= pred (total l).
Proof.
  induction l as [|x l IH]; [cbn; lia|]. destruct l as [|y l]; [rewrite total_cons; cbn; lia|].
  change (join [c_nl] (x :: y :: l)) with (x ++ [c_nl] ++ join [c_nl] (y :: l)).
  rewrite !app_length. change (total (x :: y :: l)) with (S (len x) + total (y :: l)).
  assert (0 < total (y :: l)) by (rewrite total_cons; lia). cbn [List.length app] in *. lia.
Qed.
Lemma lines_content_len : forall f l, len (lines_content f l) = len f + total l.
Proof.
  intros f l. unfold lines_content. rewrite app_length. f_equal.
  induction l as [|x l IH]; [reflexivity|]. cbn [flat_map].
  rewrite total_cons, app_length, IH. reflexivity.
Qed.
(** every round returns a line and consumes at least one character more *)
Definition vline (p : parser str) : Prop :=
  forall s r a, p s = Ok r a -> S (len a) + len r <= len s.
Lemma many0_total : forall p, vline p -> forall s r a, many0 p s = Ok r a -> total a + len r <= len s.
Proof.
  intros p Hp s. unfold many0. generalize (S (len s)) as f. intros f. revert s.
  induction f as [|f IH]; intros s r a E; cbn [many0_go] in E; [discriminate|].
  destruct (p s) as [r1 a1| |] eqn:E1; try discriminate.
  - destruct (Nat.eqb_spec (len r1) (len s)); [discriminate|].
    destruct (many0_go f p r1) as [r2 l| |] eqn:E2; try discriminate. injection E as <- <-.
    apply IH in E2. apply Hp in E1. cbn [map]; rewrite ?total_cons, ?total_nil; cbn [List.length]; lia.
  - injection E as <- <-. cbn [map]; rewrite ?total_cons, ?total_nil; cbn [List.length]; lia.
Qed.
Lemma many1_total : forall p, vline p -> forall s r a, many1 p s = Ok r a -> total a + len r <= len s.
Proof.
  intros p Hp s r a E. unfold many1, pmap, bind, ret in E.
  destruct (p s) as [r1 a1| |] eqn:E1; try discriminate.
  destruct (many0 p r1) as [r2 l| |] eqn:E2; try discriminate. injection E as <- <-.
  apply Hp in E1. apply (many0_total _ Hp) in E2. cbn [map]; rewrite ?total_cons, ?total_nil; cbn [List.length]; lia.
Qed.
Lemma many1_ne : forall A (p : parser A) s r a, many1 p s = Ok r a -> a <> [].
Proof.
  intros A p s r a E. unfold many1, pmap, bind, ret in E.
  destruct (p s) as [r1 a1| |]; try discriminate.
  destruct (many0 p r1) as [r2 l| |]; try discriminate. now injection E as <- <-.
Qed.
Lemma vline_preceded : forall A (p : parser A) q, eats true p -> vlen q -> vline (preceded p q).
Proof.
  intros A p q Hp Hq s r a E. unfold preceded, bind in E.
  destruct (p s) as [r1 a1| |] eqn:E1; try discriminate. apply Hq in E.
  apply (eats_lt _ _ _ _ _ Hp) in E1. lia.
Qed.
Lemma vlen_not_eol0 : vlen not_eof_or_eol0.
Proof. unfold not_eof_or_eol0. apply vlen_alt. repeat constructor; [apply vlen_not_line_ending|apply vlen_eof]. Qed.
Lemma vlen_not_eol1 : vlen not_eof_or_eol1.
Proof. unfold not_eof_or_eol1. apply vlen_recognize. eats. Qed.
Lemma quote_lines_total : forall s r a, p_quote_lines s = Ok r a -> total a + len r <= len s.
Proof.
  apply many1_total. apply vline_preceded; [unfold p_quote_prefix; eats|].
  apply vlen_terminated; [apply vlen_not_eol0|eats].
Qed.
Lemma quote_lines_lt : forall s r a, p_quote_lines s = Ok r a -> len (join [c_nl] a) < len s.
Proof.
  intros s r a E. pose proof (many1_ne _ _ _ _ _ E). apply quote_lines_total in E.
  pose proof (join_total a). assert (0 < total a) by (destruct a; [congruence|cbn [tl]; rewrite total_cons; lia]). lia.
Qed.
Lemma quote_lines_tl_lt : forall s r a, p_quote_lines s = Ok r a -> len (join [c_nl] (tl a)) < len s.
Proof.
  intros s r a E. pose proof (many1_ne _ _ _ _ _ E). apply quote_lines_total in E.
  pose proof (join_total (tl a)). assert (total (tl a) < total a) by (destruct a; [congruence|cbn [tl]; rewrite total_cons; lia]). lia.
Qed.
Lemma footnote_lines_lt : forall s r l c, p_footnote_lines s = Ok r (l, c) -> len c < len s.
Proof.
  intros s r l c E. unfold p_footnote_lines in E. unfold bind at 1 in E.
  destruct (up_to_3_spaces s) as [s1 a1| |] eqn:E1; try discriminate. unfold bind at 1 in E.
  destruct (tag (lit "[^") s1) as [s2 a2| |] eqn:E2; try discriminate. unfold bind at 1 in E.
  destruct (recognize _ s2) as [s3 a3| |] eqn:E3; try discriminate. unfold bind at 1 in E.
  destruct (tag (lit "]:") s3) as [s4 a4| |] eqn:E4; try discriminate. unfold bind at 1 in E.
  destruct (up_to_3_spaces s4) as [s5 a5| |] eqn:E5; try discriminate. unfold bind at 1 in E.
  destruct (line_terminated not_eof_or_eol1 s5) as [s6 a6| |] eqn:E6; try discriminate. unfold bind at 1 in E.
  destruct (many0 _ s6) as [s7 a7| |] eqn:E7; try discriminate. injection E as <- <- <-.
  rewrite lines_content_len.
  apply (eats_len _ false) in E1; [|eats]. apply (eats_lt) in E2; [|eats].
  apply (eats_len _ false) in E3; [|eats]. apply (eats_lt) in E4; [|eats].
  apply (eats_len _ false) in E5; [|eats].
  apply (vlen_terminated _ _ _ _ vlen_not_eol1 eats_eof_or_eol) in E6.
  apply many0_total in E7; [lia|]. apply vline_preceded; [eats|].
  apply vlen_terminated; [apply vlen_not_eol1|eats].
Qed.

(** a terminated line: either the line ending was consumed or the input is exhausted *)
Lemma eol_cases : forall s r a, eof_or_eol s = Ok r a -> len r < len s \/ s = [] /\ r = [].
Proof.
  intros s r a E. unfold eof_or_eol in E. cbn [alt] in E. unfold or_else in E.
  destruct (line_ending s) as [r1 a1| |] eqn:E1; try discriminate.
  - injection E as <- <-. left. exact (eats_lt _ _ _ _ _ eats_line_ending E1).
  - unfold eof in E. destruct s; [|discriminate]. injection E as <- <-. now right.
Qed.
Lemma line_terminated_inv : forall A (p : parser A) s r a, line_terminated p s = Ok r a ->
  exists r0, p s = Ok r0 a /\ (len r < len r0 \/ r0 = [] /\ r = []).
Proof.
  intros A p s r a E. unfold line_terminated, terminated, value, pmap, bind, ret in E.
  destruct (p s) as [r0 a0| |] eqn:E1; try discriminate.
  destruct (eof_or_eol r0) as [r1 a1| |] eqn:E2; try discriminate. injection E as <- <-.
  exists r0. split; [reflexivity|]. exact (eol_cases _ _ _ E2).
Qed.
Lemma concat_one : forall A (x : list A), concat [x] = x.
Proof. intros. cbn. apply app_nil_r. Qed.
Lemma rest_line_len : forall k m s r a, p_rest_line k m s = Ok r a ->
  S (len (concat a)) + len r <= len s \/ r = [] /\ len (concat a) <= len s.
Proof.
  intros k m s r a E. unfold p_rest_line in E. destruct s as [|c s]; [discriminate|]. revert E.
  generalize (c :: s) as s'. clear. intros s E.
  apply line_terminated_inv in E as (r0 & E & Hr).
  assert (X : len (concat a) + len r0 <= len s).
  { unfold preceded at 1, bind at 1 in E. destruct (peek _ s) as [s1 u| |] eqn:E1; try discriminate.
    apply (eats_len _ false) in E1; [|eats].
    cbn [alt] in E. unfold or_else in E.
    match type of E with (match ?p s1 with _ => _ end) = _ => destruct (p s1) as [r1 a1| |] eqn:E2 end; try discriminate.
    - injection E as <- <-. unfold preceded at 1, bind at 1 in E2.
      destruct (many_m_n _ _ _ s1) as [s2 u2| |] eqn:E3; try discriminate.
      apply (eats_len _ false) in E3; [|eats].
      unfold pmap, bind, ret in E2. destruct (not_eof_or_eol1 s2) as [s3 v| |] eqn:E4; try discriminate.
      injection E2 as <- <-. apply vlen_not_eol1 in E4. rewrite concat_one. lia.
    - clear E2. unfold pmap at 1, bind at 1, pair_ at 1, bind at 1 in E.
      destruct (recognize _ s1) as [s2 nl| |] eqn:E2; try discriminate.
      apply vlen_recognize in E2; [|eats]. unfold pmap, bind at 1 in E.
      destruct (preceded _ _ s2) as [s3 v| |] eqn:E3; try discriminate.
      apply (vlen_preceded _ _ (many_m_n m m (chr " ")) _ (ltac:(eats)) vlen_not_eol1) in E3.
      cbn in E. injection E as <- <-. cbn. rewrite app_nil_r, app_length. lia. }
  destruct Hr as [Hr|[-> ->]]; [left; lia|right; split; [reflexivity|cbn in X; lia]].
Qed.
Lemma rest_lines_len : forall k m s r l, many0 (p_rest_line k m) s = Ok r l ->
  total (map (@concat _) l) + len r <= S (len s).
Proof.
  intros k m s. unfold many0. generalize (S (len s)) at 1 as f. intros f. revert s.
  induction f as [|f IH]; intros s r a E; cbn [many0_go] in E; [discriminate|].
  destruct (p_rest_line k m s) as [r1 a1| |] eqn:E1; try discriminate.
  - destruct (Nat.eqb_spec (len r1) (len s)); [discriminate|].
    destruct (many0_go f _ r1) as [r2 l| |] eqn:E2; try discriminate. injection E as <- <-.
    apply rest_line_len in E1 as [E1|[-> E1]].
    + apply IH in E2. cbn [map]; rewrite ?total_cons, ?total_nil; cbn [List.length]; lia.
    + destruct f; [discriminate|]. cbn in E2. injection E2 as <- <-. cbn [map]; rewrite total_cons. unfold total; cbn [fold_right List.length]. lia.
  - injection E as <- <-. cbn [map]. unfold total; cbn [fold_right]. lia.
Qed.
Lemma marker_span_len : forall s r x f, p_marker_with_span s = Ok r (x, f) ->
  len f + 2 + len r <= len s \/ r = [] /\ S (len f) <= len s.
Proof.
  intros s r x f E. unfold p_marker_with_span in E. cbn [alt] in E. unfold or_else in E.
  match type of E with (match ?p s with _ => _ end) = _ => destruct (p s) as [r1 a1| |] eqn:E2 end; try discriminate.
  - injection E as <- ->. unfold pmap, bind, ret in E2.
    destruct (p_marker_newline s) as [s1 y| |] eqn:E1; try discriminate. injection E2 as <- _ <-.
    unfold p_marker_newline in E1. unfold bind at 1 in E1.
    destruct (consumed _ s) as [s2 [kd n]| |] eqn:E2; try discriminate.
    apply eats_lt in E2; [|eats_c]. unfold or_else in E1.
    match type of E1 with (match ?p s2 with _ => _ end) = _ => destruct (p s2) as [s3 z| |] eqn:E3 end; try discriminate.
    + injection E1 as <- <-. unfold pmap, bind, ret in E3.
      destruct (line_terminated space0 s2) as [s4 w| |] eqn:E4; try discriminate. injection E3 as <- _.
      apply line_terminated_inv in E4 as (r0 & E4 & Hr). apply (eats_len _ false) in E4; [|eats].
      destruct Hr as [Hr|[-> ->]]; [left; cbn; lia|right; cbn; split; [reflexivity|lia]].
    + unfold bind at 1 in E1. destruct (consumed up_to_3_spaces s2) as [s4 [u m]| |] eqn:E4; try discriminate.
      apply (eats_len _ false) in E4; [|eats_c]. unfold bind, ret in E1.
      destruct (line_terminated p_task_state s4) as [s5 w| |] eqn:E5; try discriminate. injection E1 as <- _.
      apply line_terminated_inv in E5 as (r0 & E5 & Hr). apply (eats_len _ false) in E5; [|eats].
      destruct Hr as [Hr|[-> ->]]; [left; cbn; lia|right; cbn; split; [reflexivity|lia]].
  - clear E2. unfold pair_, pmap, bind, ret in E.
    destruct (p_marker_spaces s) as [s1 y| |] eqn:E1; try discriminate. apply eats_lt in E1; [|eats].
    destruct (line_terminated not_eof_or_eol0 s1) as [s2 z| |] eqn:E2; try discriminate. injection E as <- _ <-.
    apply line_terminated_inv in E2 as (r0 & E2 & Hr). apply vlen_not_eol0 in E2.
    destruct Hr as [Hr|[-> ->]]; [left; lia|right; cbn in *; split; [reflexivity|lia]].
Qed.
Lemma item_lines_lt : forall s r k t c, p_list_item_lines s = Ok r (k, t, c) -> len c < len s.
Proof.
  intros s r k t c E. unfold p_list_item_lines in E. unfold bind at 1 in E.
  destruct (p_marker_with_span s) as [s1 [[[kd n] tk] f]| |] eqn:E1; try discriminate. unfold bind at 1 in E.
  destruct (many0 (p_rest_line kd n) s1) as [s2 l| |] eqn:E2; try discriminate. injection E as <- <- <- <-.
  rewrite lines_content_len. apply marker_span_len in E1 as [E1|[-> E1]].
  - apply rest_lines_len in E2. lia.
  - cbn in E2. injection E2 as <- <-. cbn [map]. unfold total; cbn [fold_right]. lia.
Qed.

(** ** Paragraphs *)
Lemma sep0_cons : forall A B (sep : parser B) (p : parser A) s r x l, eats false sep -> eats true p ->
  separated_list0 sep p s = Ok r (x :: l) -> len r < len s.
Proof.
  intros A B sep p s r x l Hs Hp E. unfold separated_list0 in E.
  destruct (p s) as [r1 a| |] eqn:E1; try discriminate. apply eats_lt in E1; [|exact Hp].
  unfold pmap, bind, ret in E. destruct (sep_go _ _ _ r1) as [r2 l2| |] eqn:E2; try discriminate.
  injection E as <- _ _. apply (eats_len _ false) in E2; [lia|].
  apply eats_sep_go; [exact Hs|now apply eats_weaken in Hp].
Qed.
Lemma inline_many1_nil : forall cfg r a, custom_ok cfg -> inline_many1 cfg [] <> Ok r a.
Proof.
  intros cfg r a Hc E. rewrite inline_many1_unfold in E by exact Hc.
  unfold pmap, bind, ret, many1, bind at 1 in E.
  destruct (p_inline cfg (inline_many1 cfg) []) as [r1 x| |] eqn:E1; try discriminate.
  apply eats_lt in E1; [|eats]. cbn in E1. lia.
Qed.

Section Rec.
  Variable cfg : config.
  Hypothesis Hcustom : custom_ok cfg.

  Lemma eats_blockquote : forall rec, eats true (p_blockquote rec).
  Proof. intro; unfold p_blockquote; eats. Qed.
  Lemma eats_github_alert : forall rec, eats true (p_github_alert cfg rec).
  Proof. intro; unfold p_github_alert; eats. Qed.
  Lemma eats_list_item : forall rec, eats true (p_list_item rec).
  Proof. intro; unfold p_list_item. eats. Qed.
  #[local] Hint Resolve eats_blockquote eats_github_alert eats_list_item : pars.
  Lemma eats_list : forall rec, eats true (p_list rec).
  Proof. intro; unfold p_list; eats. Qed.
  Lemma eats_footnote_definition : forall rec, eats true (p_footnote_definition rec).
  Proof. intro; unfold p_footnote_definition; eats. Qed.
  #[local] Hint Resolve eats_list eats_footnote_definition : pars.
  Lemma eats_line_start : forall rec, eats false (p_is_paragraph_line_start cfg rec).
  Proof. intro; unfold p_is_paragraph_line_start; eats. Qed.
  #[local] Hint Resolve eats_line_start : pars.
  Lemma eats_paragraph_f : forall rec, eats false (p_paragraph cfg rec true).
  Proof. intro; unfold p_paragraph; eats. Qed.
  Lemma eats_paragraph : forall rec b, eats true (p_paragraph cfg rec b).
  Proof.
    intros rec b. destruct b; [|unfold p_paragraph; eats].
    intros s r a E. destruct (eats_paragraph_f rec _ _ _ E) as (c & -> & _). exists c. split; [reflexivity|].
    intros _ ->. unfold p_paragraph, bind at 1, ret at 1 in E. cbn [app] in E. unfold bind in E.
    destruct (line_terminated _ r) as [r1 l| |] eqn:E1; try discriminate.
    unfold nested in E. destruct (inline_many1 cfg _) as [r2 x| |] eqn:E2; try discriminate. injection E as -> _.
    destruct l as [|x1 l]; [now apply inline_many1_nil in E2|].
    apply line_terminated_inv in E1 as (r0 & E1 & Hr). apply sep0_cons in E1; [|eats|eats].
    destruct Hr as [Hr|[-> ->]]; [lia|cbn in E1; lia].
  Qed.
  #[local] Hint Resolve eats_paragraph : pars.
  Lemma eats_hv2 : forall rec, eats true (p_heading_v2_or_paragraph cfg rec).
  Proof. intro; unfold p_heading_v2_or_paragraph; eats. Qed.
  Lemma eats_custom_block : eats true (p_custom_block cfg).
  Proof.
    unfold p_custom_block. destruct (custom_block cfg) eqn:E; [|apply eats_fail]. now apply Hcustom.
  Qed.
  #[local] Hint Resolve eats_hv2 eats_custom_block : pars.
  Lemma eats_block : forall rec, eats true (p_block cfg rec).
  Proof. intro; unfold p_block; eats. Qed.

  Variable n : nat.
  Variables rec rec' : parser (list block).
  Hypothesis Heats : eats true rec.
  Hypothesis Hrec : forall m, m < n -> rel m rec rec'.

  Lemma rel_nested0 : forall k c, len c < n -> rel k (nested (many0 rec) c) (nested (many0 rec') c).
  Proof.
    intros k c Hc. eapply rel_nested; [|exact (Nat.le_refl _)]. apply rel_many0; [now apply eats_weaken in Heats|].
    now apply Hrec.
  Qed.
  Lemma rel_nested1 : forall k c, len c < n -> rel k (nested (many1 rec) c) (nested (many1 rec') c).
  Proof.
    intros k c Hc. eapply rel_nested; [|exact (Nat.le_refl _)]. apply rel_many1; [now apply eats_weaken in Heats|].
    now apply Hrec.
  Qed.
  Lemma rel_blockquote : rel n (p_blockquote rec) (p_blockquote rec').
  Proof.
    unfold p_blockquote. apply rel_bind_gen; [rel|]. intros s r a Hs E. exists n.
    split; [apply (eats_len _ false) in E; [lia|eats]|]. apply quote_lines_lt in E.
    unfold pmap. apply rel_bind; [eats|apply rel_nested1; lia|intro; rel].
  Qed.
  Lemma rel_github_alert : rel n (p_github_alert cfg rec) (p_github_alert cfg rec').
  Proof.
    unfold p_github_alert. apply rel_bind; [eats|unfold p_quote_prefix; rel|]. intros fl.
    destruct (parse_alert_marker _ _) as [ty|]; [|rel].
    apply rel_bind_gen; [rel|]. intros s r a Hs E. exists n.
    split; [apply (eats_len _ false) in E; [lia|eats]|]. apply quote_lines_tl_lt in E. cbv zeta.
    destruct (join [c_nl] (tl a)) as [|x y]; [rel|].
    apply rel_bind; [eats| |intro; rel]. unfold pmap. apply rel_bind; [eats|apply rel_nested1; lia|intro; rel].
  Qed.
  Lemma rel_list_item : rel n (p_list_item rec) (p_list_item rec').
  Proof.
    unfold p_list_item. apply rel_bind_gen; [rel|]. intros s r [[k t] c] Hs E. exists n.
    split; [apply (eats_len _ false) in E; [lia|eats]|]. apply item_lines_lt in E.
    apply rel_bind; [eats| |intro; rel]. unfold pmap. apply rel_bind; [eats|apply rel_nested0; lia|intro; rel].
  Qed.
  #[local] Hint Resolve rel_blockquote rel_github_alert rel_list_item : pars.
  Lemma rel_list : rel n (p_list rec) (p_list rec').
  Proof. unfold p_list; rel. Qed.
  Lemma rel_footnote_definition : rel n (p_footnote_definition rec) (p_footnote_definition rec').
  Proof.
    unfold p_footnote_definition. apply rel_bind_gen; [rel|]. intros s r [l c] Hs E. exists n.
    split; [apply (eats_len _ false) in E; [lia|eats]|]. apply footnote_lines_lt in E.
    apply rel_bind; [eats| |intro; rel]. unfold pmap. apply rel_bind; [eats|apply rel_nested0; lia|intro; rel].
  Qed.
  Lemma rel_custom_block : rel n (p_custom_block cfg) (p_custom_block cfg).
  Proof.
    unfold p_custom_block. destruct (custom_block cfg) eqn:E; [|apply rel_fail].
    intros s _. split; [reflexivity|]. now apply Hcustom.
  Qed.
  #[local] Hint Resolve rel_list rel_footnote_definition rel_custom_block : pars.
  Lemma rel_line_start : rel n (p_is_paragraph_line_start cfg rec) (p_is_paragraph_line_start cfg rec').
  Proof. unfold p_is_paragraph_line_start; rel. Qed.
  #[local] Hint Resolve rel_line_start : pars.
  Lemma rel_paragraph : forall b, rel n (p_paragraph cfg rec b) (p_paragraph cfg rec' b).
  Proof.
    intro; unfold p_paragraph. pose proof (rel_nested_safe _ _ (rel_inline_many1 cfg Hcustom)). rel.
  Qed.
  #[local] Hint Resolve rel_paragraph : pars.
  Lemma rel_hv2 : rel n (p_heading_v2_or_paragraph cfg rec) (p_heading_v2_or_paragraph cfg rec').
  Proof. unfold p_heading_v2_or_paragraph; rel. Qed.
  #[local] Hint Resolve rel_hv2 : pars.
  Lemma rel_block : rel n (p_block cfg rec) (p_block cfg rec').
  Proof. unfold p_block; rel. Qed.
End Rec.
#[export] Hint Resolve eats_blockquote eats_github_alert eats_list_item eats_list eats_footnote_definition
  eats_line_start eats_paragraph eats_hv2 eats_custom_block eats_block : pars.

(** ** Tying the knot *)
Lemma eats_block_f : forall cfg, custom_ok cfg -> forall f, eats true (block_f cfg f).
Proof. intros cfg Hc [|f]; [intros ? ? ? E; discriminate|]. cbn [block_f]. now apply eats_block. Qed.
Lemma rel_block_f : forall cfg, custom_ok cfg -> forall n f f', n < f -> n < f' ->
  rel n (block_f cfg f) (block_f cfg f').
Proof.
  intros cfg Hc. induction n as [n IH] using lt_wf_ind. intros [|f] [|f'] H H'; try lia.
  cbn [block_f]. apply rel_block; [exact Hc|now apply eats_block_f|]. intros m Hm. apply IH; lia.
Qed.
Lemma block_f_eq : forall cfg, custom_ok cfg -> forall f s, len s < f -> block_f cfg f s = block_ cfg s.
Proof. intros cfg Hc f s H. unfold block_. apply (rel_block_f cfg Hc (len s)); lia. Qed.
Lemma rel_block_f1 : forall cfg, custom_ok cfg -> forall n f, n < f -> rel n (block_f cfg f) (block_ cfg).
Proof.
  intros cfg Hc n f H s Hs. split; [apply block_f_eq; [exact Hc|lia]|].
  apply (rel_block_f cfg Hc (len s) f f); lia.
Qed.
Lemma eats_block_ : forall cfg, custom_ok cfg -> eats true (block_ cfg).
Proof. intros cfg Hc s r a E. exact (eats_block_f cfg Hc _ _ _ _ E). Qed.
Lemma rel_block_ : forall cfg, custom_ok cfg -> forall n, rel n (block_ cfg) (block_ cfg).
Proof.
  intros cfg Hc n s Hs. split; [reflexivity|]. apply (rel_block_f cfg Hc (len s) (S (len s)) (S (len s))); lia.
Qed.
Theorem block_unfold : forall cfg, custom_ok cfg -> forall s, block_ cfg s = p_block cfg (block_ cfg) s.
Proof.
  intros cfg Hc s. unfold block_ at 1. cbn [block_f].
  apply (rel_block cfg Hc (len s)); [now apply eats_block_f| |lia]. intros m Hm. now apply rel_block_f1.
Qed.
Theorem parse_markdown_unfold : forall cfg, custom_ok cfg -> forall s,
  parse_markdown cfg s = p_document (block_ cfg) s.
Proof.
  intros cfg Hc s. unfold parse_markdown.
  assert (X : rel (len s) (p_document (block_f cfg (S (len s)))) (p_document (block_ cfg))); [|apply X; lia].
  pose proof (rel_block_f1 cfg Hc (len s) (S (len s)) (Nat.lt_succ_diag_r _)).
  pose proof (eats_block_f cfg Hc (S (len s))). unfold p_document. rel.
Qed.
#[export] Hint Resolve eats_block_ rel_block_ : pars.
(** the fuel of the model never runs out *)
Theorem parse_markdown_no_oof : forall cfg, custom_ok cfg -> forall s, parse_markdown cfg s <> Oof.
Proof.
  intros cfg Hc s. rewrite parse_markdown_unfold by exact Hc.
  assert (X : rel (len s) (p_document (block_ cfg)) (p_document (block_ cfg))); [|apply X; lia].
  pose proof (rel_block_ cfg Hc (len s)). pose proof (eats_block_ cfg Hc). unfold p_document. rel.
Qed.
