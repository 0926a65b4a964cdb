(** The remaining entry points of the two traits with every method at its default. *)
From Verif Require Import HookFacts ExpandFacts TransformFacts RewriteFacts.

Section Plain.
  Context {S : Type}.
  Local Notation t := (default_transformer S).
  Definition singleton_on {A} (f : A -> M S (list A)) := forall x s, f x s = ([x], s).
  Lemma dt_inline i s : transform_inline t i s = (i, s).
  Proof. apply default_transform_inline. Qed.
  Lemma dt_block b s : transform_block t b s = (b, s).
  Proof. apply default_transform_block. Qed.
  Lemma dt_inlines l s : mapM (transform_inline t) l s = (l, s).
  Proof. rewrite (mapM_pure _ (fun i => i)); [now rewrite map_id|]. apply Forall_all, dt_inline. Qed.
  Lemma dt_blocks l s : mapM (transform_block t) l s = (l, s).
  Proof. rewrite (mapM_pure _ (fun i => i)); [now rewrite map_id|]. apply Forall_all, dt_block. Qed.
  Lemma dt_cells l s : mapM (transform_table_cell t) l s = (l, s).
  Proof. rewrite (mapM_pure _ (fun i => i)); [now rewrite map_id|]. apply Forall_all. intros c s0. apply dt_inlines. Qed.
  Lemma dx_inlines l s : flat_mapM (call_expand_inline t) l s = (l, s).
  Proof.
    rewrite (flat_mapM_pure _ (fun i => [i])); [now rewrite flat_map_single_id|]. apply Forall_all. intros i s0.
    unfold call_expand_inline, one. cbn. unfold bind, ret. now rewrite dt_inline.
  Qed.
  Lemma dx_blocks l s : flat_mapM (expand_block t) l s = (l, s).
  Proof.
    rewrite (flat_mapM_pure _ (fun i => [i])); [now rewrite flat_map_single_id|]. apply Forall_all. intros i s0.
    unfold expand_block. cbn. unfold bind, ret. now rewrite dt_block.
  Qed.
  Lemma plain_entries :
    (singleton_on (call_expand_document t) /\ singleton_on (expand_block t) /\ singleton_on (call_expand_inline t) /\
     singleton_on (expand_table_cell t) /\ singleton_on (call_expand_list_item t) /\ singleton_on (call_expand_table_row t) /\
     singleton_on (call_expand_heading t) /\ singleton_on (call_expand_link t) /\ singleton_on (call_expand_image t) /\
     singleton_on (call_expand_code_block t) /\ singleton_on (call_expand_text t) /\
     singleton_on (call_expand_footnote_definition t) /\ singleton_on (call_expand_github_alert t)) /\
    (singleton_on (walk_expand_table_cell t) /\ singleton_on (walk_expand_heading t) /\ singleton_on (walk_expand_link t) /\
     singleton_on (walk_expand_image (S := S)) /\ singleton_on (walk_expand_code_block (S := S)) /\ singleton_on (walk_expand_text (S := S)) /\
     singleton_on (walk_expand_footnote_definition t) /\ singleton_on (walk_expand_github_alert t)).
  Proof.
    repeat split; intros x s; try reflexivity; 
      unfold call_expand_document, expand_block, call_expand_inline, expand_table_cell, call_expand_list_item, call_expand_table_row,
        call_expand_heading, call_expand_link, call_expand_footnote_definition, call_expand_github_alert, one,
        transform_document, transform_table_cell, transform_list_item, transform_table_row, transform_heading, transform_link,
        transform_footnote_definition, transform_github_alert, walk_expand_table_cell, walk_expand_heading, walk_expand_link,
        walk_expand_footnote_definition, walk_expand_github_alert;
      cbn -[transform_inline transform_block transform_table_cell call_expand_inline expand_block];
      unfold bind, ret; rewrite ?dt_inlines, ?dt_blocks, ?dt_cells, ?dt_inline, ?dt_block, ?dx_inlines, ?dx_blocks;
      try reflexivity; now destruct x.
  Qed.
End Plain.
Section Generic.
  Context {S T : Type}.
  Local Notation t := (default_gtransformer S T).
  Lemma generic_entries :
    singleton_on (gcall_expand_document t) /\ singleton_on (gcall_expand_block t) /\
    singleton_on (gcall_expand_inline t) /\ singleton_on (gcall_expand_table_cell t).
  Proof.
    repeat split; intros x s;
      unfold gcall_expand_document, gcall_expand_block, gcall_expand_inline, gcall_expand_table_cell, single, bind, ret; cbn -[gtransform_inline gtransform_block gtransform_document gtransform_table_cell];
      rewrite ?g_document, ?g_block, ?g_inline; try reflexivity.
    unfold gtransform_table_cell. cbn -[gtransform_inline]. now rewrite g_inlines.
  Qed.
End Generic.
