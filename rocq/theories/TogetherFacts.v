(** Proof of C95. *)
From Coq Require Import String Lia.
From Verif Require Import HtmlFacts HtmlProps LatexPrinter JoinFacts JoinBlocks SpecTogether.
Import ListNotations.
Open Scope list_scope.

Definition inl_ok (l : list inline) : Prop := Forall standalone_inline (flat_map inline_preorder l).
Definition blk_ok (b : block) : Prop := standalone_block b /\ inl_ok (block_inlines b).
Definition alone (l : list block) : Prop := Forall blk_ok (flat_map block_preorder l).
Lemma standalone_alone : forall l, standalone l -> alone l.
Proof.
  intros l [A B]. unfold alone, doc_blocks, doc_inlines in *. cbn [d_blocks] in *. apply Forall_forall. intros b I. split; [exact (proj1 (Forall_forall _ _) A b I)|].
  apply Forall_forall. intros i J. apply (proj1 (Forall_forall _ _) B). apply in_flat_map. exists b. now split.
Qed.
Lemma inl_app : forall a b, inl_ok (a ++ b) <-> inl_ok a /\ inl_ok b.
Proof. intros. unfold inl_ok. rewrite flat_map_app. apply Forall_app. Qed.
Lemma inl_concat : forall l, inl_ok (concat l) -> Forall inl_ok l.
Proof. induction l as [|x l IH]; intros H; [constructor|]. cbn [concat] in H. apply inl_app in H as [H1 H2]. constructor; auto. Qed.
Lemma inl_cons : forall i l, inl_ok (i :: l) -> Forall standalone_inline (inline_preorder i) /\ inl_ok l.
Proof. intros i l H. unfold inl_ok in H. cbn [flat_map] in H. now apply Forall_app in H. Qed.
Lemma alone_cons : forall b l, alone (b :: l) -> Forall blk_ok (block_preorder b) /\ alone l.
Proof. intros i l H. unfold alone in H. cbn [flat_map] in H. now apply Forall_app in H. Qed.
Lemma alone_items : forall its, Forall blk_ok (flat_map (fun it => flat_map block_preorder (li_blocks it)) its) -> Forall (fun it => alone (li_blocks it)) its.
Proof. induction its as [|it its IH]; intros H; [constructor|]. cbn [flat_map] in H. apply Forall_app in H as [H1 H2]. constructor; auto. Qed.

(** ** HTML *)
Lemma refs_inlines : forall l ix, inl_ok l -> get_inlines_indicies ix l = ix.
Proof.
  induction l as [|i l IH]; intros ix H; [reflexivity|]. apply inl_cons in H as [H1 H2]. unfold get_inlines_indicies in *. cbn [fold_left].
  assert (E : get_inline_indicies ix i = ix) by (destruct i; inversion H1; try reflexivity; contradiction). rewrite E. now apply IH.
Qed.
Lemma refs_fold : forall A (f : index -> A -> index) l ix, Forall (fun x => forall ix, f ix x = ix) l -> fold_left f l ix = ix.
Proof. intros A f l. induction l as [|x l IH]; intros ix H; [reflexivity|]. inversion H; subst. cbn [fold_left]. rewrite H2. now apply IH. Qed.
Lemma alone_all : forall (P : block -> Prop) bs, Forall (fun b => Forall blk_ok (block_preorder b) -> P b) bs -> alone bs -> Forall P bs.
Proof. intros P bs H. induction H as [|b bs X _ IH]; intros A; [constructor|]. apply alone_cons in A as [A1 A2]. constructor; auto. Qed.
Lemma refs_block : forall b, Forall blk_ok (block_preorder b) -> forall ix, get_block_indicies ix b = ix.
Proof.
  induction b as [c|h| |bs IH|k items IH|c|s|d|t|l bs IH|t bs IH|] using block_ind'; intros H ix; inversion H as [|? ? [X Y] H']; subst; try reflexivity; cbn [get_block_indicies].
  - now apply refs_inlines.
  - now apply refs_inlines.
  - apply refs_fold. now apply alone_all.
  - apply refs_fold. cbn [l_items] in *. apply alone_items in H'. clear H X Y. induction IH as [|it its Z _ IH]; [constructor|]. inversion H'; subst. constructor; [|now apply IH]. intros ix'. apply refs_fold. now apply alone_all.
  - destruct X.
  - apply refs_fold. cbn [block_inlines] in Y. apply inl_concat in Y. apply Forall_forall. intros row I ix'. apply refs_fold. apply Forall_forall. intros c J ix2. apply refs_inlines. apply (proj1 (Forall_forall _ _) Y). apply in_concat. now exists row.
  - destruct X.
  - apply refs_fold. now apply alone_all.
Qed.
Lemma doc_inline : forall st st' i, Forall standalone_inline (inline_preorder i) -> inline_to_doc st i = inline_to_doc st' i.
Proof.
  intros st st'. 
  assert (M : forall l, Forall (fun i => Forall standalone_inline (inline_preorder i) -> inline_to_doc st i = inline_to_doc st' i) l -> inl_ok l -> map (inline_to_doc st) l = map (inline_to_doc st') l).
  { intros l H. induction H as [|i l X _ IH]; intros O; [reflexivity|]. apply inl_cons in O as [O1 O2]. cbn [map]. f_equal; auto. }
  induction i as [s| |s|s|d t c IH|l t IHl IH|im|c IH|c IH|c IH|s|s|] using inline_ind'; intros H; inversion H as [|? ? X Y]; subst; try reflexivity; try contradiction; cbn [inline_to_doc link_children]; now rewrite M.
Qed.
Lemma map_inlines : forall st st' l, inl_ok l -> map (inline_to_doc st) l = map (inline_to_doc st') l.
Proof. intros st st'. induction l as [|i l IH]; intros H; [reflexivity|]. apply inl_cons in H as [H1 H2]. cbn [map]. f_equal; [now apply doc_inline|now apply IH]. Qed.
Lemma doc_cells : forall st st' tg al row n acc, Forall inl_ok row -> cells_to_doc st tg al n row acc = cells_to_doc st' tg al n row acc.
Proof. intros st st' tg al. induction row as [|c row IH]; intros n acc H; [reflexivity|]. inversion H; subst. cbn [cells_to_doc]. unfold inlines_to_doc. rewrite (map_inlines st st') by assumption. now apply IH. Qed.
Lemma doc_table : forall st st' t, inl_ok (concat (concat (t_rows t))) -> table_to_doc st t = table_to_doc st' t.
Proof.
  intros st st' t H. unfold table_to_doc. apply inl_concat in H. destruct (t_rows t) as [|r rows]; [reflexivity|]. cbn [concat] in H. apply Forall_app in H as [H1 H2].
  assert (R : forall tg al row, Forall inl_ok row -> table_row_to_doc st row tg al = table_row_to_doc st' row tg al) by (intros; unfold table_row_to_doc; now rewrite (doc_cells st st')).
  rewrite R by exact H1. f_equal. f_equal. f_equal. clear H1. generalize DNil as acc. revert H2. induction rows as [|r2 rows IH]; intros H2 acc; [reflexivity|]. cbn [concat] in H2. apply Forall_app in H2 as [H2 H3]. cbn [fold_left]. rewrite R by exact H2. now apply IH.
Qed.
Lemma doc_block : forall st st' b, Forall blk_ok (block_preorder b) -> block_to_doc st b = block_to_doc st' b.
Proof.
  intros st st'.
  assert (M : forall l, Forall (fun b => Forall blk_ok (block_preorder b) -> block_to_doc st b = block_to_doc st' b) l -> alone l -> map (block_to_doc st) l = map (block_to_doc st') l).
  { intros l H. induction H as [|i l X _ IH]; intros O; [reflexivity|]. apply alone_cons in O as [O1 O2]. cbn [map]. f_equal; auto. }
  induction b as [c|h| |bs IH|k items IH|c|s|d|t|l bs IH|t bs IH|] using block_ind'; intros H; inversion H as [|? ? [X Y] H']; subst; try reflexivity; try contradiction; cbn [block_to_doc ga_blocks l_items l_kind] in *; unfold inlines_to_doc; try (now rewrite (map_inlines st st')); try (now rewrite M).
  - f_equal. f_equal. apply alone_items in H'. clear H X Y. induction IH as [|it its Z _ IH]; [reflexivity|]. inversion H'; subst. cbn [map]. f_equal; [|now apply IH]. f_equal. f_equal. f_equal. now apply M.
  - now apply doc_table.
Qed.
Lemma doc_blocks_same : forall st st' l, alone l -> map (block_to_doc st) l = map (block_to_doc st') l.
Proof. intros st st'. induction l as [|b l IH]; intros H; [reflexivity|]. apply alone_cons in H as [H1 H2]. cbn [map]. f_equal; [now apply doc_block|now apply IH]. Qed.
Lemma refs_blocks : forall l ix, alone l -> fold_left get_block_indicies l ix = ix.
Proof. intros l ix H. apply refs_fold. apply alone_all; [|exact H]. apply Forall_forall. intros b _. apply refs_block. Qed.
Lemma dtext_docs : forall l acc, dtext (fold_left append l acc) = oapp (dtext acc) (dtext (fold_left append l DNil)).
Proof.
  induction l as [|x l IH]; intros acc; cbn [fold_left]; [symmetry; apply oapp_nil_r|]. rewrite IH, dtext_append, (IH (append DNil x)), dtext_append, oapp_assoc. cbn [dtext]. now rewrite oapp_nil_l.
Qed.
Lemma dtext_concat_app : forall a b, dtext (concat_docs (a ++ b)) = oapp (dtext (concat_docs a)) (dtext (concat_docs b)).
Proof. intros a b. unfold concat_docs. rewrite fold_left_app. apply dtext_docs. Qed.
Lemma html_together : forall uw config a b, standalone a \/ standalone b ->
  render_html uw (Document (a ++ b)) config = oapp (render_html uw (Document a) config) (render_html uw (Document b) config).
Proof.
  intros uw config a b H. rewrite !render_html_dtext. cbn [d_blocks]. unfold blocks_to_doc. rewrite map_app, dtext_concat_app.
  unfold html_state_new, get_indicies. cbn [d_blocks]. rewrite fold_left_app. destruct H as [H|H]; apply standalone_alone in H.
  - rewrite (refs_blocks a) by exact H. f_equal. now rewrite (doc_blocks_same _ (HtmlState config index_new) a).
  - rewrite !(refs_blocks b) by exact H. f_equal. f_equal. f_equal. now apply doc_blocks_same.
Qed.

(** ** LaTeX *)
Lemma lrefs_fold : forall A (f : lindex -> A -> lindex) l ix, Forall (fun x => forall ix, f ix x = ix) l -> fold_left f l ix = ix.
Proof. intros A f l. induction l as [|x l IH]; intros ix H; [reflexivity|]. inversion H; subst. cbn [fold_left]. rewrite H2. now apply IH. Qed.
Lemma lrefs_block : forall b, Forall blk_ok (block_preorder b) -> forall ix, process_block ix b = ix.
Proof.
  induction b as [c|h| |bs IH|k items IH|c|s|d|t|l bs IH|t bs IH|] using block_ind'; intros H ix; inversion H as [|? ? [X Y] H']; subst; try reflexivity; try contradiction; cbn [process_block].
  - apply lrefs_fold. now apply alone_all.
  - apply lrefs_fold. cbn [l_items] in *. apply alone_items in H'. clear H X Y. induction IH as [|it its Z _ IH]; [constructor|]. inversion H'; subst. constructor; [|now apply IH]. intros ix'. apply lrefs_fold. now apply alone_all.
  - apply lrefs_fold. now apply alone_all.
Qed.
Lemma lrefs_blocks : forall l ix, alone l -> fold_left process_block l ix = ix.
Proof. intros l ix H. apply lrefs_fold. apply alone_all; [|exact H]. apply Forall_forall. intros b _. apply lrefs_block. Qed.
Section Latex.
  Variables st st' : latex_state.
  Hypothesis C : ls_config st = ls_config st'.
  Lemma lmap_inlines : forall l, inl_ok l -> map (linline_to_doc st) l = map (linline_to_doc st') l.
  Proof.
    assert (M : forall l, Forall (fun i => Forall standalone_inline (inline_preorder i) -> linline_to_doc st i = linline_to_doc st' i) l -> inl_ok l -> map (linline_to_doc st) l = map (linline_to_doc st') l).
    { intros l H. induction H as [|i l X _ IH]; intros O; [reflexivity|]. apply inl_cons in O as [O1 O2]. cbn [map]. f_equal; auto. }
    intros l. apply M. apply Forall_forall. intros i _. induction i as [s| |s|s|d t c IH|l' t IHl IH|im|c IH|c IH|c IH|s|s|] using inline_ind'; intros H; inversion H as [|? ? X Y]; subst; try reflexivity; try contradiction; cbn [linline_to_doc link_children]; now rewrite M.
  Qed.
  Lemma ldoc_row : forall r, Forall inl_ok r -> render_table_row st r = render_table_row st' r.
  Proof.
    intros r H. unfold render_table_row, linlines_to_doc. destruct H as [|c r H1 H2]; [reflexivity|]. rewrite lmap_inlines by exact H1. f_equal. generalize (append DNil (concat_docs (map (linline_to_doc st') c))) as acc. induction H2 as [|c2 r X _ IH]; intros acc; [reflexivity|]. cbn [fold_left]. rewrite lmap_inlines by exact X. apply IH.
  Qed.
  Lemma ldoc_table : forall t, inl_ok (concat (concat (t_rows t))) -> render_table st t = render_table st' t.
  Proof.
    intros t H. unfold render_table. rewrite C. apply inl_concat in H.
    assert (R : forall tail rows acc, Forall inl_ok (concat rows) ->
      fold_left (fun a r => append (append (append a (render_table_row st r)) tail) DHardline) rows acc = fold_left (fun a r => append (append (append a (render_table_row st' r)) tail) DHardline) rows acc).
    { intros tail. induction rows as [|r rows IH]; intros acc O; [reflexivity|]. cbn [concat] in O. apply Forall_app in O as [O1 O2]. cbn [fold_left]. rewrite ldoc_row by exact O1. now apply IH. }
    destruct (t_rows t) as [|r rows]; [reflexivity|]. cbn [concat] in H. apply Forall_app in H as [H1 H2]. cbn [skipn]. rewrite ldoc_row by exact H1.
    destruct (lc_table_style (ls_config st')); cbv beta zeta; now rewrite !R.
  Qed.
  Lemma lmap_blocks : forall l, alone l -> map (lblock_to_doc st) l = map (lblock_to_doc st') l.
  Proof.
    assert (M : forall l, Forall (fun b => Forall blk_ok (block_preorder b) -> lblock_to_doc st b = lblock_to_doc st' b) l -> alone l -> map (lblock_to_doc st) l = map (lblock_to_doc st') l).
    { intros l H. induction H as [|i l X _ IH]; intros O; [reflexivity|]. apply alone_cons in O as [O1 O2]. cbn [map]. f_equal; auto. }
    intros l. apply M. apply Forall_forall. intros b _. induction b as [c|h| |bs IH|k items IH|c|s|d|t|l' bs IH|t bs IH|] using block_ind'; intros H; inversion H as [|? ? [X Y] H']; subst; try reflexivity; try contradiction; cbn [lblock_to_doc ga_blocks l_items l_kind] in *; unfold linlines_to_doc; try (now rewrite lmap_inlines); try (now rewrite M).
    - f_equal. f_equal. apply alone_items in H'. clear H X Y. induction IH as [|it its Z _ IH]; [reflexivity|]. inversion H'; subst. cbn [map]. f_equal; [|now apply IH]. f_equal. f_equal. f_equal. now apply M.
    - unfold render_code_block. now rewrite C.
    - now apply ldoc_table.
  Qed.
End Latex.
(** no indentation anywhere, so only line breaks to the first column *)
Fixpoint level (d : doc) : Prop :=
  match d with
  | DNest _ _ | DColumn _ => False
  | DAppend a b | DFlatAlt a b => level a /\ level b
  | DGroup d' => level d'
  | _ => True
  end.
Lemma level_okend : forall d, level d -> okend 0 d.
Proof. induction d; cbn; intuition. Qed.
Lemma level_append : forall a b, level a -> level b -> level (append a b).
Proof. intros a b A B. destruct a, b; try assumption; (split; assumption). Qed.
Lemma level_fold : forall l acc, level acc -> Forall level l -> level (fold_left append l acc).
Proof. intros l. induction l as [|x l IH]; intros acc A H; [exact A|]. inversion H; subst. apply IH; [now apply level_append|assumption]. Qed.
Lemma level_map : forall A (f : A -> doc) l, Forall (fun x => level (f x)) l -> level (concat_docs (map f l)).
Proof. intros A f l H. apply level_fold; [exact I|]. now apply Forall_map. Qed.
Ltac lev := repeat first [exact I | assumption | apply level_append | apply level_map].
Section Level.
  Variable st : latex_state.
  Lemma level_command : forall n d, level d -> level (command n d).
  Proof. intros. unfold command. lev. Qed.
  Lemma level_env : forall n o d, level d -> level (environment n o d).
  Proof. intros n o d H. unfold environment. destruct o; lev. Qed.
  Lemma level_inline : forall i, level (linline_to_doc st i).
  Proof.
    induction i as [s| |s|s|d t c IH|l t IHl IH|im|c IH|c IH|c IH|s|s|] using inline_ind'; cbn [linline_to_doc link_title link_destination link_children lr_label lr_text]; try (apply level_command; lev).
    - unfold ltext_to_doc. destruct (trim (nl_to_sp s)); [exact I|]. apply level_map. apply Forall_forall. intros [w|] _; cbn; auto.
    - lev.
    - exact I.
    - destruct t; lev.
    - destruct (l_link_definition st l); lev.
    - destruct (image_alt im); lev.
    - destruct (l_footnote_index st s); lev.
    - exact I.
  Qed.
  Lemma level_inlines : forall l, level (linlines_to_doc st l).
  Proof. intros l. apply level_map. apply Forall_forall. intros i _. apply level_inline. Qed.
  Lemma level_row : forall r, level (render_table_row st r).
  Proof.
    intros r. unfold render_table_row. apply level_append; [|exact I]. destruct r as [|c r]; [exact I|]. assert (G : level (append DNil (linlines_to_doc st c))) by (apply level_append; [exact I|apply level_inlines]). revert G. generalize (append DNil (linlines_to_doc st c)) as acc.
    induction r as [|c2 r IH]; intros acc G; [exact G|]. cbn [fold_left]. apply IH. repeat apply level_append; [exact G|exact I|apply level_inlines].
  Qed.
  Ltac lev2 := repeat first [apply level_row | exact I | assumption | apply level_append].
  Lemma level_table : forall t, level (render_table st t).
  Proof.
    intros t. unfold render_table.
    assert (R : forall tail rows acc, level tail -> level acc -> level (fold_left (fun a r => append (append (append a (render_table_row st r)) tail) DHardline) rows acc)).
    { intros tail. induction rows as [|r rows IH]; intros acc T A; [exact A|]. cbn [fold_left]. apply IH; [exact T|]. lev2. }
    assert (Q : forall rule x, level x -> level (match t_rows t with [] => x | h :: _ => append (append (append (append x (render_table_row st h)) DHardline) (DText rule)) DHardline end)).
    { intros rule x X. destruct (t_rows t); [exact X|]. lev2. }
    destruct (lc_table_style (ls_config st)); apply level_env; cbv beta zeta; try apply level_append; try (apply R; [exact I|]; apply Q; exact I); try exact I. apply R; [exact I|]. apply Q. lev.
  Qed.
  Lemma level_join : forall l, Forall level l -> level (join_blocks l).
  Proof.
    intros l H. unfold join_blocks. destruct H as [|d l A H]; [exact I|]. assert (G : level (append DNil d)) by exact A. revert G. generalize (append DNil d) as acc. induction H as [|x l X _ IH]; intros acc G; [exact G|]. cbn [fold_left]. apply IH. lev.
  Qed.
  Lemma level_block : forall b, level (lblock_to_doc st b).
  Proof.
    assert (J : forall bs, Forall (fun b => level (lblock_to_doc st b)) bs -> level (join_blocks (map (lblock_to_doc st) bs))) by (intros; apply level_join; now apply Forall_map).
    induction b as [c|h| |bs IH|k items IH|c|s|d|t|l bs IH|t bs IH|] using block_ind'; cbn [lblock_to_doc l_items fd_label fd_blocks ga_blocks]; try exact I.
    - apply level_inlines.
    - apply level_command, level_inlines.
    - apply level_command. exact I.
    - apply level_env. now apply J.
    - apply level_env. apply level_map. induction IH as [|it its Z _ IH]; [constructor|]. constructor; [|exact IH]. lev; [destruct (li_task it) as [[]|]; exact I|now apply J].
    - unfold render_code_block. destruct (lc_code_block_style (ls_config st)); [apply level_env; exact I|apply level_env; exact I|lev].
    - apply level_table.
    - destruct (l_footnote_index st l); [|exact I]. apply level_command. apply level_append; [exact I|now apply J].
    - apply level_command. apply level_append; [exact I|now apply J].
  Qed.
End Level.

Lemma join_docs : forall x l, join_blocks (x :: l) = fold_left append (x :: flat_map (fun y => [DHardline; DHardline; y]) l) DNil.
Proof.
  intros x l. cbn [join_blocks fold_left]. generalize (append DNil x) as acc. induction l as [|y l IH]; intros acc; [reflexivity|]. cbn [fold_left flat_map app]. apply IH.
Qed.
Lemma run_level : forall l, Forall level l -> at_last (okend 0) l.
Proof. intros l H. apply at_last_all. eapply Forall_impl; [|exact H]. apply level_okend. Qed.
Lemma level_seq : forall l, Forall level l -> Forall level (flat_map (fun y => [DHardline; DHardline; y]) l).
Proof. intros l H. induction H; [constructor|]. cbn [flat_map app]. repeat constructor; assumption. Qed.
Lemma Forall_solids : forall (P : doc -> Prop) l, Forall P l -> Forall P (solids l).
Proof. intros P l H. induction H as [|x l X _ IH]; [constructor|]. unfold solids in *. cbn [filter]. destruct (nonnil x); [now constructor|exact IH]. Qed.
Lemma render_joined : forall uw w a x b y, Forall level (a :: x) -> Forall level (b :: y) ->
  render uw w (join_blocks ((a :: x) ++ b :: y)) =
  match render uw w (join_blocks (a :: x)), render uw w (join_blocks (b :: y)) with
  | Some o, Some o' => Some (o ++ [c_nl; c_nl] ++ o')
  | _, _ => None
  end.
Proof.
  intros uw w a x b y Ha Hb. cbn [app]. rewrite !join_docs. unfold render. rewrite !best_concat.
  change (a :: flat_map (fun y0 => [DHardline; DHardline; y0]) (x ++ b :: y)) with ([a] ++ flat_map (fun y0 => [DHardline; DHardline; y0]) (x ++ b :: y)).
  rewrite flat_map_app, app_assoc. cbn [flat_map]. change ([DHardline; DHardline; b] ++ ?l) with ([DHardline; DHardline] ++ b :: l). rewrite solids_app. set (first := solids ([a] ++ _)). rewrite solids_app. set (second := solids (b :: _)). rewrite run_app.
  rewrite (JoinFacts.run_end uw w first); [| |intros p; reflexivity|reflexivity].
  - replace (solids (a :: flat_map (fun y0 => [DHardline; DHardline; y0]) x)) with first by reflexivity. destruct (run uw w first [] 0) as [[s p]|]; [|reflexivity]. cbn [option_map fst]. rewrite run_app.
    replace (run uw w (solids [DHardline; DHardline]) (pend second ++ []) p) with (Some ([c_nl; c_nl], 0)).
    + destruct (run uw w second [] 0) as [[s' p']|]; reflexivity.
    + rewrite app_nil_r. clearbody second. cbn [solids filter nonnil run]. unfold pend at 1. cbn [map app best]. cbn. destruct second as [|z second]; reflexivity.
  - apply run_level, Forall_solids. inversion Ha; subst. constructor; [assumption|]. now apply level_seq.
Qed.
Lemma latex_together : forall uw config a b, a <> [] -> b <> [] -> standalone a \/ standalone b ->
  render_latex uw (Document (a ++ b)) config =
  match render_latex uw (Document a) config, render_latex uw (Document b) config with
  | Some o, Some o' => Some (o ++ [c_nl; c_nl] ++ o')
  | _, _ => None
  end.
Proof.
  intros uw config a b Na Nb H. unfold render_latex. cbn [d_blocks]. rewrite map_app.
  assert (E : exists st st', map (lblock_to_doc (latex_state_new config (Document (a ++ b)))) a = map (lblock_to_doc st) a /\
    map (lblock_to_doc (latex_state_new config (Document (a ++ b)))) b = map (lblock_to_doc st') b /\ st = latex_state_new config (Document a) /\ st' = latex_state_new config (Document b)).
  { do 2 eexists. split; [|split; [|split; reflexivity]]; unfold latex_state_new, get_indices; cbn [d_blocks]; rewrite fold_left_app; destruct H as [H|H]; apply standalone_alone in H.
    - now apply lmap_blocks.
    - now rewrite (lrefs_blocks b).
    - now rewrite (lrefs_blocks a).
    - now apply lmap_blocks. }
  destruct E as (st & st' & -> & -> & -> & ->).
  destruct a as [|x a]; [congruence|]. destruct b as [|y b]; [congruence|]. cbn [map]. apply render_joined; (apply Forall_cons; [apply level_block|]; apply Forall_map; apply Forall_forall; intros z _; apply level_block).
Qed.
