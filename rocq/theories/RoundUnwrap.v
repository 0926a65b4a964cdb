(** The Markdown printer does not tell line breaks in texts from spaces. *)
From Coq Require Import String Lia.
From Verif Require Import HtmlProps.
From Verif Require Export SpecRound MdProps.
Import ListNotations.
Open Scope list_scope.

Lemma inline_unwrap : forall i, inline_preorder (unwrap_inline i) = map unwrap_inline (inline_preorder i).
Proof.
  assert (HL : forall l, Forall (fun i => inline_preorder (unwrap_inline i) = map unwrap_inline (inline_preorder i)) l ->
    flat_map inline_preorder (map unwrap_inline l) = map unwrap_inline (flat_map inline_preorder l)).
  { induction 1 as [|x l H1 H2 IH]; [reflexivity|]. cbn [map flat_map]. rewrite map_app. congruence. }
  induction i using inline_ind'; cbn [inline_preorder unwrap_inline map link_children lr_label lr_text]; try reflexivity; f_equal;
    rewrite ?map_app; rewrite ?HL by assumption; reflexivity.
Qed.
Lemma inlines_unwrap : forall l, flat_map inline_preorder (unwrap_inlines l) = map unwrap_inline (flat_map inline_preorder l).
Proof. induction l as [|x l IH]; [reflexivity|]. cbn [unwrap_inlines map flat_map]. rewrite inline_unwrap, map_app. f_equal. exact IH. Qed.
(** the label and the text of a reference: the same, or different in more than blanks *)
Definition no_ref (i : inline) : Prop :=
  match i with ILinkReference r => lr_label r = lr_text r \/ unwrap_inlines (lr_label r) <> unwrap_inlines (lr_text r) | _ => True end.
Section Unwrap.
Variables (uwidth : str -> nat) (upper : char -> str) (udigit : char -> bool) (big : nat) (config : md_config).
Lemma unwrap_md : forall wrap i, Forall no_ref (inline_preorder i) -> md_inline udigit wrap (unwrap_inline i) = md_inline udigit wrap i.
Proof.
  intros wrap.
  assert (HL : forall l, Forall (fun i => Forall no_ref (inline_preorder i) -> md_inline udigit wrap (unwrap_inline i) = md_inline udigit wrap i) l ->
    Forall no_ref (flat_map inline_preorder l) -> map (md_inline udigit wrap) (map unwrap_inline l) = map (md_inline udigit wrap) l).
  { intros l H F. rewrite map_map. induction H as [|x l H1 H2 IH]; [reflexivity|]. cbn [flat_map] in F. apply Forall_app in F as [F1 F2]. cbn [map]. rewrite H1, IH by assumption. reflexivity. }
  induction i using inline_ind'; cbn [inline_preorder unwrap_inline md_inline]; intros F; try reflexivity; inversion F as [|? ? F1 F2]; subst;
    try (cbn [link_children link_title link_destination] in *; rewrite HL by assumption; reflexivity).
  - change (unwrap_text s) with (nl_to_sp s). rewrite !split_with_spaces_tokens, tokens_nl. reflexivity.
  - apply Forall_app in F2 as [F2 F3]. cbn [md_inline lr_label lr_text] in *.
    assert (Q : list_eqb inline_eqb (map unwrap_inline l) (map unwrap_inline t) = list_eqb inline_eqb l t).
    { cbn in F1. destruct F1 as [<-|F1]; [rewrite !(proj2 (label_eqb_eq _ _)) by reflexivity; reflexivity|]. destruct (list_eqb inline_eqb l t) eqn:E2.
      - apply label_eqb_eq in E2. subst. now destruct F1.
      - destruct (list_eqb inline_eqb (map unwrap_inline l) (map unwrap_inline t)) eqn:E3; [|reflexivity]. apply label_eqb_eq in E3. now destruct F1. }
    rewrite Q, !HL by assumption. reflexivity.
Qed.
Lemma unwrap_mds : forall wrap l, Forall no_ref (flat_map inline_preorder l) -> md_inlines udigit wrap (unwrap_inlines l) = md_inlines udigit wrap l.
Proof.
  intros wrap l F. unfold md_inlines, unwrap_inlines. rewrite map_map. f_equal. apply map_ext_in. intros i I. apply unwrap_md.
  apply Forall_forall. intros x X. rewrite Forall_forall in F. apply F. apply in_flat_map. eauto.
Qed.
Definition refless (b : block) : Prop := Forall no_ref (flat_map (fun x => flat_map inline_preorder (block_inlines x)) (block_preorder b)).
Local Notation md := (md_block uwidth upper udigit big config).
Lemma blocks_go_unwrap : forall l, Forall (fun b => md (unwrap_block b) = md b) l -> forall acc f,
  blocks_go config acc f (map (fun x => (x, md x)) (map unwrap_block l)) = blocks_go config acc f (map (fun x => (x, md x)) l).
Proof.
  induction 1 as [|b l H1 H2 IH]; intros acc f; [reflexivity|]. cbn [map blocks_go]. rewrite H1.
  replace (match unwrap_block b with BList _ => if md_empty_line_before_list config then append (append acc DHardline) DHardline else append acc DHardline | _ => append (append acc DHardline) DHardline end)
    with (match b with BList _ => if md_empty_line_before_list config then append (append acc DHardline) DHardline else append acc DHardline | _ => append (append acc DHardline) DHardline end);
    [destruct f; apply IH|]. destruct b as [c|[]| |bs|[k items]|c|s|[]|[]|[]|[]|]; reflexivity.
Qed.
Lemma refless_list : forall l, Forall no_ref (flat_map (fun x => flat_map inline_preorder (block_inlines x)) (flat_map block_preorder l)) -> Forall refless l.
Proof.
  intros l F. apply Forall_forall. intros b B. apply Forall_forall. intros i I. rewrite Forall_forall in F. apply F. apply in_flat_map in I as (x & X & I).
  apply in_flat_map. exists x. split; [|exact I]. apply in_flat_map. eauto.
Qed.
Lemma unwrap_md_block : forall b, refless b -> md (unwrap_block b) = md b.
Proof.
  assert (HL : forall l, Forall (fun b => refless b -> md (unwrap_block b) = md b) l -> Forall refless l -> Forall (fun b => md (unwrap_block b) = md b) l).
  { intros l H F. rewrite Forall_forall in *. auto. }
  induction b as [c|h| |bs IH|k items IH|c|s|d|t|l bs IH|t bs IH|] using block_ind'; intros R; unfold refless in R; cbn [block_preorder flat_map block_inlines] in R; try reflexivity.
  - rewrite app_nil_r in R. apply (unwrap_mds true c R).
  - rewrite app_nil_r in R. destruct h as [[n|[]] c]; cbn [unwrap_block md_block]; unfold md_heading; cbn [h_kind h_content] in *; now rewrite unwrap_mds.
  - cbn [app] in R. cbn [unwrap_block md_block]. unfold blocks_doc. rewrite blocks_go_unwrap; [reflexivity|]. apply HL; [exact IH|]. now apply refless_list.
  - cbn [app] in R. cbn [unwrap_block md_block l_kind l_items] in *. f_equal. rewrite map_map. apply map_ext_in. intros it I. cbn [li_task li_blocks]. f_equal.
    unfold blocks_doc. apply blocks_go_unwrap. rewrite Forall_forall in IH. apply HL; [now apply IH|]. apply refless_list. clear -R I.
    apply Forall_forall. intros x X. rewrite Forall_forall in R. apply R. apply in_flat_map in X as (b & B & X). apply in_flat_map. exists b. split; [|exact X].
    apply in_flat_map. exists it. now split.
  - rewrite app_nil_r in R. destruct d as [lb ds ti]. cbn [unwrap_block md_block]. unfold md_definition. cbn [ld_label ld_destination ld_title] in *. now rewrite unwrap_mds.
  - rewrite app_nil_r in R. destruct t as [rows al]. cbn [unwrap_block md_block t_rows] in *. unfold md_table. cbn [t_rows t_alignments].
    assert (T : table_content uwidth udigit big (Table (map (map unwrap_inlines) rows) al) = table_content uwidth udigit big (Table rows al)).
    { unfold table_content. cbn [t_rows]. f_equal. rewrite map_map. apply map_ext_in. intros row I. f_equal. rewrite map_map. apply map_ext_in. intros cell J.
      unfold render_cell. rewrite unwrap_mds; [reflexivity|]. apply Forall_forall. intros x X. rewrite Forall_forall in R. apply R.
      apply in_flat_map in X as (i & Ii & X). apply in_flat_map. exists i. split; [|exact X]. apply in_concat. exists cell. split; [|exact Ii]. apply in_concat. now exists row. }
    rewrite T. destruct rows; reflexivity.
  - cbn [app fd_blocks] in R. cbn [unwrap_block md_block fd_blocks fd_label]. unfold blocks_doc. rewrite blocks_go_unwrap; [reflexivity|]. apply HL; [exact IH|]. now apply refless_list.
  - cbn [app ga_blocks] in R. cbn [unwrap_block md_block ga_blocks ga_type]. unfold blocks_doc. rewrite blocks_go_unwrap; [|apply HL; [exact IH|now apply refless_list]].
    destruct bs; reflexivity.
Qed.
Theorem unwrap_render : forall d, Forall no_ref (doc_inlines d) ->
  render_markdown uwidth upper udigit big (unwrap d) config = render_markdown uwidth upper udigit big d config.
Proof.
  intros [bs] F. unfold render_markdown, unwrap. cbn [d_blocks]. f_equal. unfold md_blocks, blocks_doc. apply blocks_go_unwrap.
  unfold doc_inlines, doc_blocks in F. cbn [d_blocks] in F. apply refless_list in F. eapply Forall_impl; [|exact F]. intros b. apply unwrap_md_block.
Qed.
End Unwrap.
