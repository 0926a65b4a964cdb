From Verif Require Export RewriteFacts GenericTransformer GenericFacts.

(** ** C18 pipelines *)
Lemma pl_apply_app p q d : pl_apply (p ++ q) d = pl_apply q (pl_apply p d).
Proof. apply fold_left_app. Qed.
Lemma pl_apply_push p f d : pl_apply (pl_push p f) d = f (pl_apply p d).
Proof. unfold pl_push. rewrite pl_apply_app. reflexivity. Qed.

Lemma boxed_run_app {A} (m : forall S, transformer S -> A -> M S A) xs ys a :
  boxed_run m (xs ++ ys) a =
  let '(a1, xs') := boxed_run m xs a in
  let '(a2, ys') := boxed_run m ys a1 in (a2, xs' ++ ys').
Proof.
  revert a; induction xs as [|x xs IH]; intros a; cbn [boxed_run app].
  - destruct (boxed_run m ys a); reflexivity.
  - destruct (boxed_step m x a) as [a1 b1]. rewrite IH.
    destruct (boxed_run m xs a1) as [a2 xs2]. destruct (boxed_run m ys a2); reflexivity.
Qed.

(** ** C19 *)
Lemma flat_map_single {A B} (g : A -> B) l : flat_map (fun x => [g x]) l = map g l.
Proof. induction l; cbn; congruence. Qed.

Section Splice.
  Context {S : Type}.
  Variable f : inline -> list inline.
  Let t : transformer S := with_walk_expand_inline (fun i _ => ret (f i)) (default_transformer S).
  Lemma t_transform_block b s : transform_block t b s = (b, s).
  Proof.
    rewrite (tr_block_pointwise _ (fun x => x) (fun x => x) (fun x => x)).
    - now rewrite rewrite_block_id.
    - intros i w kids s0. destruct i; try (intros H; exact H); try reflexivity. intros c _ Hw. exact Hw.
    - intros b' w s0. destruct b'; try reflexivity. intros H; exact H.
    - others.
  Qed.
  Lemma t_transform_inline i s : transform_inline t i s = (i, s).
  Proof.
    rewrite (tr_inline_pointwise _ (fun x => x) (fun x => x)).
    - now rewrite rewrite_inline_id.
    - intros i' w kids s0. destruct i'; try (intros H; exact H); try reflexivity. intros c _ Hw. exact Hw.
    - others.
  Qed.
  Lemma splice_inlines c s : flat_mapM (walk_expand_inline t) c s = (flat_map f c, s).
  Proof. apply flat_mapM_pure, Forall_all. reflexivity. Qed.
  Lemma expand_list_item_t it s : walk_expand_list_item t it s = ([it], s).
  Proof.
    unfold walk_expand_list_item, bind, ret.
    rewrite (flat_mapM_pure _ (fun b => [b])).
    - rewrite flat_map_single, map_id. now destruct it.
    - apply Forall_all. intros b s0. unfold expand_block. cbn [tr_expand_block t with_walk_expand_inline default_transformer].
      unfold bind, ret. now rewrite t_transform_block.
  Qed.
  Lemma expand_row_t r s : walk_expand_table_row t r s = ([r], s).
  Proof.
    unfold walk_expand_table_row, bind, ret.
    rewrite (flat_mapM_pure _ (fun b => [b])).
    - now rewrite flat_map_single, map_id.
    - apply Forall_all. intros c s0. unfold expand_table_cell, transform_table_cell. cbn [tr_expand_table_cell tr_table_cell t with_walk_expand_inline default_transformer].
      unfold bind, ret. rewrite (mapM_pure _ (fun i => i)); [now rewrite map_id|].
      apply Forall_all. intros; apply t_transform_inline.
  Qed.
  Lemma walk_expand_block_splice b : forall s, walk_expand_block t b s = ([splice_block f b], s).
  Proof.
    assert (L : forall bs, Forall (fun b => forall s, walk_expand_block t b s = ([splice_block f b], s)) bs ->
      forall s, flat_mapM (walk_expand_block t) bs s = (map (splice_block f) bs, s)).
    { intros bs H s. rewrite (flat_mapM_pure _ (fun b => [splice_block f b])) by exact H. now rewrite flat_map_single. }
    induction b using block_ind'; intros st; cbn [walk_expand_block];
      cbn [tr_walk_expand_block t with_walk_expand_inline default_transformer]; fold t; unfold bind, ret;
      rewrite ?splice_inlines, ?t_transform_block; try (rewrite L by assumption); try reflexivity.
    - rewrite (flat_mapM_pure _ (fun it => [it])) by (apply Forall_all; intros; apply expand_list_item_t).
      now rewrite flat_map_single, map_id.
    - rewrite (flat_mapM_pure _ (fun it => [it])) by (apply Forall_all; intros; apply expand_row_t).
      rewrite flat_map_single, map_id. match goal with x : table |- _ => now destruct x end.
  Qed.
  Lemma expand_document_splice d s :
    expand_document t d s = ([Document (map (splice_block f) (d_blocks d))], s).
  Proof.
    unfold expand_document, bind, ret.
    rewrite (flat_mapM_pure _ (fun b => [splice_block f b])) by (apply Forall_all; intros; apply walk_expand_block_splice).
    now rewrite flat_map_single.
  Qed.
End Splice.

Lemma flat_map_single_id {A} (l : list A) : flat_map (fun x => [x]) l = l.
Proof. induction l; cbn; congruence. Qed.

Lemma splice_block_id b : splice_block (fun i => [i]) b = b.
Proof.
  induction b using block_ind'; cbn; rewrite ?flat_map_single_id; try rewrite map_id_Forall by assumption;
    try reflexivity; try now destruct h. now destruct d.
Qed.

(** The default expansion. *)
Lemma default_walk_expand_block S b : forall s, walk_expand_block (default_transformer S) b s = ([b], s).
Proof.
  set (t := default_transformer S).
  assert (LI : forall c s, flat_mapM (walk_expand_inline t) c s = (c, s)).
  { intros c s. rewrite (flat_mapM_pure _ (fun i => [i])); [now rewrite flat_map_single_id|].
    apply Forall_all. intros i s0. unfold walk_expand_inline. cbn [tr_walk_expand_inline t default_transformer].
    unfold bind, ret. fold t. now rewrite default_transform_inline. }
  assert (LIt : forall it s, walk_expand_list_item t it s = ([it], s)).
  { intros it s. unfold walk_expand_list_item, bind, ret.
    rewrite (flat_mapM_pure _ (fun b => [b])).
    - rewrite flat_map_single_id. now destruct it.
    - apply Forall_all. intros b0 s0. unfold expand_block. cbn [tr_expand_block t default_transformer].
      unfold bind, ret. fold t. now rewrite default_transform_block. }
  assert (LR : forall r s, walk_expand_table_row t r s = ([r], s)).
  { intros r s. unfold walk_expand_table_row, bind, ret.
    rewrite (flat_mapM_pure _ (fun b => [b])).
    - now rewrite flat_map_single_id.
    - apply Forall_all. intros c s0. unfold expand_table_cell, transform_table_cell.
      cbn [tr_expand_table_cell tr_table_cell t default_transformer].
      unfold bind, ret. fold t. rewrite (mapM_pure _ (fun i => i)); [now rewrite map_id|].
      apply Forall_all. intros; apply default_transform_inline. }
  assert (L : forall bs, Forall (fun b => forall s, walk_expand_block t b s = ([b], s)) bs ->
      forall s, flat_mapM (walk_expand_block t) bs s = (bs, s)).
  { intros bs H s. rewrite (flat_mapM_pure _ (fun b => [b])) by exact H. now rewrite flat_map_single_id. }
  induction b using block_ind'; intros st; cbn [walk_expand_block];
      cbn [tr_walk_expand_block t default_transformer]; fold t; unfold bind, ret;
      rewrite ?LI; try (rewrite L by assumption); try (unfold t; rewrite default_transform_block; fold t); try reflexivity.
  - now destruct h.
  - rewrite (flat_mapM_pure _ (fun it => [it])) by (apply Forall_all; intros; apply LIt).
    now rewrite flat_map_single_id.
  - now destruct d.
  - rewrite (flat_mapM_pure _ (fun it => [it])) by (apply Forall_all; intros; apply LR).
    rewrite flat_map_single_id. match goal with x : table |- _ => now destruct x end.
Qed.
Lemma default_expand_document S d s : expand_document (default_transformer S) d s = ([d], s).
Proof.
  unfold expand_document, bind, ret.
  rewrite (flat_mapM_pure _ (fun b => [b])) by (apply Forall_all; intros; apply default_walk_expand_block).
  rewrite flat_map_single_id. now destruct d.
Qed.

(** ** Expansion of blocks by an overridden [walk_expand_block] that replaces
    some blocks and falls back to the default walk for the others. *)
Section SpliceBlocksFacts.
  Context {S : Type}.
  Variable f : block -> option (list block).
  Let t : transformer S :=
    with_walk_expand_block (fun b w => match f b with Some l => ret l | None => w end) (default_transformer S).
  Lemma tb_transform_block b s : transform_block t b s = (b, s).
  Proof.
    rewrite (tr_block_pointwise _ (fun x => x) (fun x => x) (fun x => x)).
    - now rewrite rewrite_block_id.
    - intros i w kids s0. destruct i; try (intros H; exact H); try reflexivity. intros c _ Hw. exact Hw.
    - intros b' w s0. destruct b'; try reflexivity. intros H; exact H.
    - others.
  Qed.
  Lemma tb_transform_inline i s : transform_inline t i s = (i, s).
  Proof.
    rewrite (tr_inline_pointwise _ (fun x => x) (fun x => x)).
    - now rewrite rewrite_inline_id.
    - intros i' w kids s0. destruct i'; try (intros H; exact H); try reflexivity. intros c _ Hw. exact Hw.
    - others.
  Qed.
  Lemma walk_expand_block_splices b : forall s, walk_expand_block t b s = (splice_blocks f b, s).
  Proof.
    assert (LI : forall c s, flat_mapM (walk_expand_inline t) c s = (c, s)).
    { intros c s. rewrite (flat_mapM_pure _ (fun i => [i])); [now rewrite flat_map_single_id|].
      apply Forall_all. intros i s0. unfold walk_expand_inline. cbn [tr_walk_expand_inline t with_walk_expand_block default_transformer].
      unfold bind, ret. fold t. now rewrite tb_transform_inline. }
    assert (LIt : forall it s, walk_expand_list_item t it s = ([it], s)).
    { intros it s. unfold walk_expand_list_item, bind, ret.
      rewrite (flat_mapM_pure _ (fun b => [b])).
      - rewrite flat_map_single_id. now destruct it.
      - apply Forall_all. intros b0 s0. unfold expand_block. cbn [tr_expand_block t with_walk_expand_block default_transformer].
        unfold bind, ret. fold t. now rewrite tb_transform_block. }
    assert (LR : forall r s, walk_expand_table_row t r s = ([r], s)).
    { intros r s. unfold walk_expand_table_row, bind, ret.
      rewrite (flat_mapM_pure _ (fun b => [b])).
      - now rewrite flat_map_single_id.
      - apply Forall_all. intros c s0. unfold expand_table_cell, transform_table_cell.
        cbn [tr_expand_table_cell tr_table_cell t with_walk_expand_block default_transformer].
        unfold bind, ret. fold t. rewrite (mapM_pure _ (fun i => i)); [now rewrite map_id|].
        apply Forall_all. intros; apply tb_transform_inline. }
    assert (L : forall bs, Forall (fun b => forall s, walk_expand_block t b s = (splice_blocks f b, s)) bs ->
      forall s, flat_mapM (walk_expand_block t) bs s = (flat_map (splice_blocks f) bs, s)).
    { intros bs H s. now rewrite (flat_mapM_pure _ (splice_blocks f)) by exact H. }
    induction b using block_ind'; intros st; cbn [walk_expand_block splice_blocks];
      cbn [tr_walk_expand_block t with_walk_expand_block default_transformer]; fold t;
      match goal with |- context [f ?b] => destruct (f b) end; [reflexivity| |reflexivity| |reflexivity| |reflexivity| |reflexivity| |reflexivity| |reflexivity| |reflexivity| |reflexivity| |reflexivity| |reflexivity| |reflexivity| ];
      unfold bind, ret; rewrite ?LI, ?tb_transform_block; try (rewrite L by assumption); try reflexivity.
    - now destruct h.
    - rewrite (flat_mapM_pure _ (fun it => [it])) by (apply Forall_all; intros; apply LIt).
      now rewrite flat_map_single_id.
    - now destruct d.
    - rewrite (flat_mapM_pure _ (fun it => [it])) by (apply Forall_all; intros; apply LR).
      rewrite flat_map_single_id. match goal with x : table |- _ => now destruct x end.
  Qed.
  Lemma expand_document_splices d s :
    expand_document t d s = ([Document (flat_map (splice_blocks f) (d_blocks d))], s).
  Proof.
    unfold expand_document, bind, ret.
    now rewrite (flat_mapM_pure _ (splice_blocks f)) by (apply Forall_all; intros; apply walk_expand_block_splices).
  Qed.
End SpliceBlocksFacts.

(** ** C21 *)
Section GDefault.
  Context {S T : Type}.
  Let t := default_gtransformer S T.
  Lemma mapM_id {A} (m : A -> M S A) l : Forall (fun x => forall s, m x s = (x, s)) l -> forall s, mapM m l s = (l, s).
  Proof. intros H s. rewrite (mapM_pure _ (fun x => x)) by exact H. now rewrite map_id. Qed.
  Lemma flat_mapM_id {A} (m : A -> M S (list A)) l : Forall (fun x => forall s, m x s = ([x], s)) l -> forall s, flat_mapM m l s = (l, s).
  Proof. intros H s. rewrite (flat_mapM_pure _ (fun x => [x])) by exact H. now rewrite flat_map_single_id. Qed.
  Ltac go tac := unfold bind, ret, map_ret, single; repeat first [rewrite mapM_id by tac | rewrite flat_mapM_id by tac]; try reflexivity.
  Lemma g_inline i : forall s, gtransform_inline t i s = (i, s).
  Proof. induction i using ginline_ind'; intros s0; cbn; go assumption. Qed.
  Lemma g_inlines l s : mapM (gtransform_inline t) l s = (l, s).
  Proof. apply mapM_id, Forall_all, g_inline. Qed.
  Lemma g_heading h s : gtransform_heading t h s = (h, s).
  Proof. unfold gtransform_heading; cbn; unfold bind; fold t. rewrite g_inlines. now destruct h. Qed.
  Lemma g_row r s : gtransform_table_row t r s = (r, s).
  Proof. apply mapM_id, Forall_all. intros c s0. apply g_inlines. Qed.
  Lemma g_block b : forall s, gtransform_block t b s = (b, s).
  Proof.
    induction b using gblock_ind'; intros s0; cbn; fold t; unfold bind, ret; rewrite ?g_inlines, ?g_heading; go assumption.
    - now destruct h.
    - rewrite mapM_id; [reflexivity|]. eapply Forall_impl; [|eassumption]. intros it Hit s1. cbn.
      rewrite mapM_id by assumption. now destruct it.
    - match goal with x : glink_definition T |- _ => now destruct x end.
    - rewrite mapM_id by (apply Forall_all, g_row). match goal with x : gtable T |- _ => now destruct x end.
  Qed.
  Lemma g_document d s : gtransform_document t d s = (d, s).
  Proof. unfold gtransform_document. cbn. unfold bind. fold t. rewrite mapM_id by (apply Forall_all, g_block). now destruct d. Qed.
  Lemma gx_inline i : forall s, gwalk_expand_inline t i s = ([i], s).
  Proof.
    induction i using ginline_ind'; intros s0; cbn; go assumption; fold t; unfold gtransform_link; cbn; fold t; go ltac:(apply Forall_all, g_inline).
  Qed.
  Lemma gx_inlines l s : flat_mapM (gwalk_expand_inline t) l s = (l, s).
  Proof. apply flat_mapM_id, Forall_all, gx_inline. Qed.
  Local Arguments gtransform_table_row : simpl never.
  Lemma gx_block b : forall s, gwalk_expand_block t b s = ([b], s).
  Proof.
    induction b using gblock_ind'; intros s0; cbn; fold t; unfold bind, ret, map_ret, single; rewrite ?gx_inlines;
      try (cbn; unfold bind, ret; rewrite ?g_heading); go assumption.
    - rewrite g_inlines. now destruct h.
    - rewrite flat_mapM_id; [reflexivity|]. apply Forall_all. intros it s1.
      unfold gtransform_list_item; cbn; fold t; unfold bind, ret. rewrite mapM_id by (apply Forall_all, g_block). now destruct it.
    - match goal with x : glink_definition T |- _ => now destruct x end.
    - rewrite flat_mapM_id by (apply Forall_all; intros r s1; cbn [gtr_expand_table_row t default_gtransformer]; fold t; unfold bind, ret; now rewrite g_row).
      match goal with x : gtable T |- _ => now destruct x end.
    - unfold gtransform_footnote; cbn; fold t; unfold bind, ret. now rewrite mapM_id by (apply Forall_all, g_block).
    - unfold gtransform_alert; cbn; fold t; unfold bind, ret. now rewrite mapM_id by (apply Forall_all, g_block).
  Qed.
  Lemma gx_document d s : gexpand_document t d s = ([d], s).
  Proof. unfold gexpand_document, bind, ret. rewrite flat_mapM_id by (apply Forall_all, gx_block). now destruct d. Qed.
End GDefault.

(** ** Corollaries in the form used by PropTransform.v *)
Lemma find_all_inlines_block_eq p b : find_all_inlines_block p b = filter p (doc_inlines (Document [b])).
Proof. rewrite <- find_all_inlines_eq. unfold find_all_inlines_doc, find_all_inlines_block. reflexivity. Qed.
Lemma find_all_inlines_vec_eq p l : find_all_inlines_vec p l = filter p (flat_map inline_preorder l).
Proof. unfold find_all_inlines_vec. now rewrite collect_inlines_eq. Qed.
Lemma find_first_inline_hd p d : find_first_inline_doc p d = hd_error (find_all_inlines_doc p d).
Proof. now rewrite find_first_inline_doc_eq, find_all_inlines_eq. Qed.
Lemma find_first_block_hd p d : find_first_block_doc p d = hd_error (find_all_blocks_doc p d).
Proof. now rewrite find_first_block_doc_eq, find_all_blocks_eq. Qed.
Lemma hd_error_filter_iff {A} (p : A -> bool) l :
  (match hd_error (filter p l) with Some _ => true | None => false end) = true <-> exists i, In i l /\ p i = true.
Proof.
  destruct (filter p l) as [|x l'] eqn:E; cbn; split; try discriminate.
  - intros (i & Hi & Hp). assert (In i (filter p l)) by (now apply filter_In). rewrite E in H. destruct H.
  - intros _. exists x. apply filter_In. rewrite E. now left.
  - reflexivity.
Qed.
Lemma any_inline_iff p d : any_inline_doc p d = true <-> exists i, In i (doc_inlines d) /\ p i = true.
Proof. unfold any_inline_doc. rewrite find_first_inline_doc_eq. apply hd_error_filter_iff. Qed.
Lemma any_block_iff p d : any_block_doc p d = true <-> exists i, In i (doc_blocks d) /\ p i = true.
Proof. unfold any_block_doc. rewrite find_first_block_doc_eq. apply hd_error_filter_iff. Qed.
Lemma count_inlines_eq p d : count_inlines_doc p d = length (filter p (doc_inlines d)).
Proof. unfold count_inlines_doc. now rewrite find_all_inlines_eq. Qed.
Lemma count_blocks_eq p d : count_blocks_doc p d = length (filter p (doc_blocks d)).
Proof. unfold count_blocks_doc. now rewrite find_all_blocks_eq. Qed.
Lemma typed_finders_eq d :
  find_all_links d = flat_map (fun i => match i with ILink l => [l] | _ => [] end) (doc_inlines d) /\
  find_all_images d = flat_map (fun i => match i with IImage l => [l] | _ => [] end) (doc_inlines d) /\
  find_all_autolinks d = flat_map (fun i => match i with IAutolink l => [l] | _ => [] end) (doc_inlines d) /\
  find_all_text d = flat_map (fun i => match i with IText l => [l] | _ => [] end) (doc_inlines d) /\
  find_all_code_spans d = flat_map (fun i => match i with ICode l => [l] | _ => [] end) (doc_inlines d) /\
  find_all_headings d = flat_map (fun b => match b with BHeading l => [l] | _ => [] end) (doc_blocks d) /\
  find_all_code_blocks d = flat_map (fun b => match b with BCodeBlock l => [l] | _ => [] end) (doc_blocks d) /\
  find_all_tables d = flat_map (fun b => match b with BTable l => [l] | _ => [] end) (doc_blocks d) /\
  find_all_lists d = flat_map (fun b => match b with BList l => [l] | _ => [] end) (doc_blocks d).
Proof.
  unfold find_all_links, find_all_images, find_all_autolinks, find_all_text, find_all_code_spans,
    find_all_headings, find_all_code_blocks, find_all_tables, find_all_lists.
  rewrite !find_all_inlines_eq, !find_all_blocks_eq.
  repeat split; (rewrite filter_map_filter by (intros []; reflexivity)); apply flat_map_ext; intros []; reflexivity.
Qed.
Lemma visitor_query_inlines (p : inline -> bool) d :
  visit_document (collecting_visitor inline (fun _ => []) (fun _ => []) (fun i => if p i then [i] else []) (fun _ => []) (fun _ => []) (fun _ => []) (fun _ => []) (fun _ => []) (fun _ => []) (fun _ => []) (fun _ => []) (fun _ => []) (fun _ => [])) d []
  = find_all_inlines_doc p d.
Proof.
  rewrite visit_document_collect, find_all_inlines_eq, <- events_document_inlines. cbn [app].
  induction (events_document d) as [|e l IH]; [reflexivity|].
  cbn [flat_map]. rewrite filter_app, <- IH. f_equal. destruct e; reflexivity.
Qed.
Lemma visitor_query_blocks (p : block -> bool) d :
  visit_document (collecting_visitor block (fun _ => []) (fun i => if p i then [i] else []) (fun _ => []) (fun _ => []) (fun _ => []) (fun _ => []) (fun _ => []) (fun _ => []) (fun _ => []) (fun _ => []) (fun _ => []) (fun _ => []) (fun _ => [])) d []
  = find_all_blocks_doc p d.
Proof.
  rewrite visit_document_collect, find_all_blocks_eq, <- events_document_blocks. cbn [app].
  induction (events_document d) as [|e l IH]; [reflexivity|].
  cbn [flat_map]. rewrite filter_app, <- IH. f_equal. destruct e; reflexivity.
Qed.
Lemma default_transforms S (s : S) :
  (forall d, transform_document (default_transformer S) d s = (d, s)) /\
  (forall b, transform_block (default_transformer S) b s = (b, s)) /\
  (forall i, transform_inline (default_transformer S) i s = (i, s)).
Proof. repeat split; intros; [apply default_transform_document|apply default_transform_block|apply default_transform_inline]. Qed.
Lemma strings_of_map_same k f d : strings_of k (map_strings k f d) = map f (strings_of k d).
Proof. rewrite strings_of_map. destruct (skind_dec k k); congruence. Qed.
Lemma strings_of_map_other k k' f d : k <> k' -> strings_of k' (map_strings k f d) = strings_of k' d.
Proof. intros H. rewrite strings_of_map. destruct (skind_dec k k'); congruence. Qed.
Lemma api_laws f g d :
  transform_text (fun s => s) d = d /\ transform_image_urls (fun s => s) d = d /\
  transform_link_urls (fun s => s) d = d /\ transform_autolink_urls (fun s => s) d = d /\
  transform_code (fun s => s) d = d /\ transform_html (fun s => s) d = d /\
  transform_text g (transform_text f d) = transform_text (fun s => g (f s)) d /\
  transform_image_urls g (transform_image_urls f d) = transform_image_urls (fun s => g (f s)) d /\
  transform_link_urls g (transform_link_urls f d) = transform_link_urls (fun s => g (f s)) d /\
  transform_autolink_urls g (transform_autolink_urls f d) = transform_autolink_urls (fun s => g (f s)) d /\
  transform_code g (transform_code f d) = transform_code (fun s => g (f s)) d /\
  transform_html g (transform_html f d) = transform_html (fun s => g (f s)) d.
Proof.
  rewrite !transform_text_eq, !transform_image_urls_eq, !transform_link_urls_eq, !transform_autolink_urls_eq,
    !transform_code_eq, !transform_html_eq. repeat split; try apply map_strings_id; apply map_strings_fuse.
Qed.
Lemma remove_empty_text_texts d :
  strings_of KText (remove_empty_text d) = filter (fun s => negb (forallb is_whitespace s)) (strings_of KText d).
Proof.
  rewrite remove_empty_text_eq. unfold strings_of. rewrite doc_blocks_rewrite.
  rewrite flat_map_map, filter_flat_map. apply flat_map_ext. intros b.
  rewrite filter_app, block_inlines_rewrite, inlines_preorder_rewrite by apply leafy_drop_blank.
  change (block_string KText (rewrite_block drop_blank (fun u => u) (fun h => h) b)) with (@nil str).
  change (block_string KText b) with (@nil str). cbn [app filter].
  rewrite flat_map_map, filter_flat_map. apply flat_map_ext. intros i.
  destruct i; try reflexivity. cbn. destruct (forallb is_whitespace s) eqn:E; cbn; rewrite ?E; reflexivity.
Qed.
Lemma normalize_whitespace_canonical d s : In s (strings_of KText (normalize_whitespace d)) -> canonical s.
Proof.
  rewrite normalize_whitespace_eq, strings_of_map_same, in_map_iff. intros (s0 & <- & _). apply normalize_canonical.
Qed.
Lemma normalize_whitespace_words d :
  Forall2 (fun s s' => forall ws, words s ws -> words s' ws)
    (strings_of KText d) (strings_of KText (normalize_whitespace d)).
Proof.
  rewrite normalize_whitespace_eq, strings_of_map_same. induction (strings_of KText d); cbn; constructor; auto.
  intros ws. apply normalize_words.
Qed.
Lemma words_exist_unique s : exists ws, words s ws /\ forall ws', words s ws' -> ws' = ws.
Proof.
  exists (split_whitespace s). split; [apply words_split|]. intros ws H. symmetry. now apply words_unique.
Qed.
Lemma normalize_whitespace_skeleton d : skeleton KText (normalize_whitespace d) = skeleton KText d.
Proof. rewrite normalize_whitespace_eq. apply skeleton_map. Qed.
Lemma map_strings_ext k f g d : (forall s, f s = g s) -> map_strings k f d = map_strings k g d.
Proof.
  intros H. rewrite <- (map_strings_id k d) at 1.
  rewrite map_strings_fuse. unfold map_strings.
  rewrite <- (rewrite_document_id d) at 1. apply rewrite_document_compose.
  - intros i Hi; exact Hi.
  - intros i _. destruct k, i; cbn; rewrite ?H; reflexivity.
  - destruct k; cbn; auto.
  - destruct k; cbn; auto.
Qed.
Lemma normalize_whitespace_idem d : normalize_whitespace (normalize_whitespace d) = normalize_whitespace d.
Proof.
  rewrite !normalize_whitespace_eq, map_strings_fuse. apply map_strings_ext, normalize_string_idem.
Qed.
Lemma filter_blocks_eq p d : d_blocks (filter_blocks p d) = filter p (d_blocks d).
Proof. reflexivity. Qed.
Lemma remove_empty_paragraphs_order d :
  exists keep, d_blocks (remove_empty_paragraphs d) = filter keep (d_blocks d)
    /\ forall b, keep b = false <-> b = BParagraph [].
Proof.
  eexists. split; [reflexivity|]. intros [[|]| | | | | | | | | | |]; cbn; split; congruence.
Qed.
Lemma remove_empty_paragraphs_in d b :
  In b (d_blocks (remove_empty_paragraphs d)) <-> In b (d_blocks d) /\ b <> BParagraph [].
Proof.
  destruct (remove_empty_paragraphs_order d) as (keep & -> & Hk). rewrite filter_In.
  specialize (Hk b). destruct (keep b); intuition congruence.
Qed.
Lemma pl_apply_new d : pl_apply pl_new d = d.
Proof. reflexivity. Qed.
Lemma pl_builders p d (f : str -> str) (g : block -> bool) (c : document -> document) :
  pl_apply (pl_transform_text p f) d = transform_text f (pl_apply p d) /\
  pl_apply (pl_transform_image_urls p f) d = transform_image_urls f (pl_apply p d) /\
  pl_apply (pl_transform_link_urls p f) d = transform_link_urls f (pl_apply p d) /\
  pl_apply (pl_transform_autolink_urls p f) d = transform_autolink_urls f (pl_apply p d) /\
  pl_apply (pl_transform_code p f) d = transform_code f (pl_apply p d) /\
  pl_apply (pl_transform_html p f) d = transform_html f (pl_apply p d) /\
  pl_apply (pl_custom p c) d = c (pl_apply p d) /\
  pl_apply (pl_remove_empty_paragraphs p) d = remove_empty_paragraphs (pl_apply p d) /\
  pl_apply (pl_remove_empty_text p) d = remove_empty_text (pl_apply p d) /\
  pl_apply (pl_normalize_whitespace p) d = normalize_whitespace (pl_apply p d) /\
  pl_apply (pl_filter_blocks p g) d = filter_blocks g (pl_apply p d).
Proof. repeat split; apply pl_apply_push. Qed.
Lemma pl_when_eq p c b d :
  pl_apply (pl_when p c b) d = if c then pl_apply (b pl_new) (pl_apply p d) else pl_apply p d.
Proof. unfold pl_when. destruct c; [apply pl_apply_push|reflexivity]. Qed.
Lemma pl_when_doc_eq p q b d :
  pl_apply (pl_when_doc p q b) d =
  (let d1 := pl_apply p d in if q d1 then pl_apply (b pl_new) d1 else d1).
Proof. apply pl_apply_push. Qed.
Lemma pl_transform_with_eq {S} p (t : transformer S) s0 d :
  pl_apply (pl_transform_with p t s0) d = fst (transform_document t (pl_apply p d) s0).
Proof. apply pl_apply_push. Qed.
Lemma composite_nil d : transform_document composite d [] = (d, []).
Proof. reflexivity. Qed.
Lemma composite_single {S} (t : transformer S) s d :
  transform_document composite d [Boxed S s t] =
  (let '(d', s') := transform_document t d s in (d', [Boxed S s' t])).
Proof.
  unfold transform_document at 1. cbn [composite tr_document with_document boxed_run boxed_step bx_S bx_t bx_state].
  unfold boxed_step. cbn [bx_S bx_t bx_state]. now destruct (transform_document t d s).
Qed.
Lemma composite_app xs ys d :
  transform_document composite d (xs ++ ys) =
  (let '(d1, xs') := transform_document composite d xs in
   let '(d2, ys') := transform_document composite d1 ys in (d2, (xs' ++ ys')%list)).
Proof. unfold transform_document. cbn [composite tr_document with_document]. apply boxed_run_app. Qed.
Lemma expansion_refuted :
  exists (f : inline -> list inline) (c : list inline),
    let t := with_walk_expand_inline (fun i _ => ret (f i)) (default_transformer unit) in
    flat_map f c <> c /\
    run (expand_document t (Document [BParagraph c])) = [Document [BParagraph (flat_map f c)]] /\
    run (expand_document t (Document [BList (MkList (Bullet Dash) [ListItem None [BParagraph c]])]))
      = [Document [BList (MkList (Bullet Dash) [ListItem None [BParagraph c]])]] /\
    run (expand_document t (Document [BTable (Table [[c]] [ANone])])) = [Document [BTable (Table [[c]] [ANone])]].
Proof.
  exists (fun i => [i; i]), [IText []]. repeat split; try reflexivity. discriminate.
Qed.
