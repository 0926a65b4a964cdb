(** Proof of C103. *)
From Coq Require Import String Lia.
From Verif Require Import HtmlFacts HtmlProps LatexProps SpecLatex SpecHtml SpecFormat RoundUnwrap HtmlPrinter.
Import ListNotations.
Open Scope list_scope.

(** ** Unwrapping *)
Lemma firm_fix : forall l, firm_label l -> unwrap_inlines l = l.
Proof.
  assert (T : forall t, ~ In c_nl t -> unwrap_text t = t).
  { intros t N. unfold unwrap_text. induction t as [|c t IH]; [reflexivity|]. cbn [map]. rewrite IH by (intro I; apply N; now right). destruct (N.eqb_spec c c_nl) as [->|]; [|reflexivity]. elim N. now left. }
  assert (K : forall i, (forall t, In (IText t) (inline_preorder i) -> ~ In c_nl t) -> unwrap_inline i = i).
  { assert (HL : forall l, Forall (fun i => (forall t, In (IText t) (inline_preorder i) -> ~ In c_nl t) -> unwrap_inline i = i) l ->
      (forall t, In (IText t) (flat_map inline_preorder l) -> ~ In c_nl t) -> map unwrap_inline l = l).
    { intros l F N. induction F as [|i l H F IH]; [reflexivity|]. cbn [map flat_map] in *. rewrite H, IH; [reflexivity|..]; intros t I; apply N; apply in_or_app; auto. }
    induction i as [s| |s|s|d t c Hc|l t Hl Ht|im|c Hc|c Hc|c Hc|s|s|] using inline_ind'; intros N; cbn [unwrap_inline]; try reflexivity; cbn [inline_preorder link_children lr_label lr_text] in N.
    - f_equal. apply T. apply N. now left.
    - do 2 f_equal. apply HL; [exact Hc|]. intros u I. apply N. now right.
    - do 2 f_equal; (apply HL; [assumption|]); intros u I; apply N; right; apply in_or_app; auto.
    - f_equal. apply HL; [exact Hc|]. intros u I. apply N. now right.
    - f_equal. apply HL; [exact Hc|]. intros u I. apply N. now right.
    - f_equal. apply HL; [exact Hc|]. intros u I. apply N. now right. }
  intros l H. unfold unwrap_inlines. rewrite <- (map_id l) at 2. apply map_ext_in. intros i I. apply K. intros t J. apply (H t). apply in_flat_map. now exists i.
Qed.

Lemma firm_unwrap : forall l, firm_label (unwrap_inlines l) <-> firm_label l.
Proof.
  intros l. unfold firm_label. rewrite inlines_unwrap. split; intros H t I.
  - specialize (H (unwrap_text t)). assert (J : In (IText (unwrap_text t)) (map unwrap_inline (flat_map inline_preorder l))) by exact (in_map unwrap_inline _ _ I).
    apply H in J as [J1 J2]. split; intro K.
    + apply J1. unfold unwrap_text. apply in_map_iff. exists c_sp. split; [reflexivity|exact K].
    + apply J1. unfold unwrap_text. apply in_map_iff. exists c_nl. split; [reflexivity|exact K].
  - apply in_map_iff in I as (i & E & I). destruct i as [u| | | |[]|[]| | | | | | |]; try discriminate. cbn [unwrap_inline] in E. injection E as <-.
    apply H in I as [I1 I2]. unfold unwrap_text. split; intro K; apply in_map_iff in K as (c & E & K); destruct (N.eqb_spec c c_nl); subst; try contradiction; discriminate.
Qed.
Lemma blocks_unwrap : forall b, block_preorder (unwrap_block b) = map unwrap_block (block_preorder b).
Proof.
  assert (HL : forall l, Forall (fun b => block_preorder (unwrap_block b) = map unwrap_block (block_preorder b)) l ->
    flat_map block_preorder (map unwrap_block l) = map unwrap_block (flat_map block_preorder l)).
  { induction 1 as [|b l E F IH]; [reflexivity|]. cbn [map flat_map]. rewrite map_app. congruence. }
  induction b as [c|[hk hc]| |bs IH|k items IH|c|s|[]|[]|l bs IH|t bs IH|] using block_ind'; try reflexivity; cbn [unwrap_block block_preorder map fd_blocks ga_blocks l_items].
  - f_equal. now apply HL.
  - f_equal. induction IH as [|it items F _ IH2]; [reflexivity|]. cbn [map flat_map li_blocks]. rewrite map_app, IH2. f_equal. now apply HL.
  - f_equal. now apply HL.
  - f_equal. now apply HL.
Qed.
Lemma doc_blocks_unwrap : forall d, doc_blocks (unwrap d) = map unwrap_block (doc_blocks d).
Proof.
  intros [bs]. unfold doc_blocks, unwrap. cbn [d_blocks]. induction bs as [|b bs IH]; [reflexivity|]. cbn [map flat_map]. rewrite map_app, IH. f_equal. apply blocks_unwrap.
Qed.
Lemma block_inlines_unwrap : forall b, block_inlines (unwrap_block b) = unwrap_inlines (block_inlines b).
Proof.
  intros [c|[hk hc]| |bs|[k items]|c|s|[]|[rows al]|[l bs]|[t bs]|]; try reflexivity. cbn [unwrap_block block_inlines t_rows].
  change (concat (concat (map (map (map unwrap_inline)) rows)) = map unwrap_inline (concat (concat rows))). now rewrite !concat_map.
Qed.
Lemma doc_inlines_unwrap : forall d, doc_inlines (unwrap d) = map unwrap_inline (doc_inlines d).
Proof.
  intros d. unfold doc_inlines. rewrite doc_blocks_unwrap. induction (doc_blocks d) as [|b l IH]; [reflexivity|]. cbn [map flat_map].
  rewrite map_app, IH. f_equal. rewrite block_inlines_unwrap. apply inlines_unwrap.
Qed.
Lemma firm_doc : forall d, firm (unwrap d) <-> firm d.
Proof.
  intros d. unfold firm. rewrite doc_inlines_unwrap, doc_blocks_unwrap. split; intros [H1 H2]; split; intros r I.
  - apply (in_map unwrap_inline) in I. destruct r as [l t]. specialize (H1 (LinkReference (map unwrap_inline l) (map unwrap_inline t)) I). now apply firm_unwrap.
  - apply (in_map unwrap_block) in I. destruct r as [l e t]. specialize (H2 (LinkDefinition (unwrap_inlines l) e t) I). now apply firm_unwrap.
  - apply in_map_iff in I as (i & E & I). destruct i as [u| | | |[]|q| | | | | | |]; try discriminate. specialize (H1 q I). destruct q as [l t]. injection E as <-. cbn [lr_label]. now apply firm_unwrap.
  - apply in_map_iff in I as (i & E & I). destruct i as [c|[]| |bs|[]|c|s|q|[]|[]|[]|]; try discriminate. specialize (H2 q I). destruct q as [l e t]. injection E as <-. cbn [ld_label]. now apply firm_unwrap.
Qed.
Lemma firm_same : forall d e, unwrap d = unwrap e -> firm d -> firm e.
Proof. intros d e E F. apply firm_doc. rewrite <- E. now apply firm_doc. Qed.

(** ** HTML *)
Definition sq (o : option str) : option str := option_map squash o.
Lemma sq_app : forall a b, sq (oapp a b) = oapp (sq a) (sq b).
Proof. intros [a|] [b|]; try reflexivity. cbn. unfold squash. now rewrite map_app. Qed.
Lemma sq_append : forall a b a' b', sq (dtext a) = sq (dtext a') -> sq (dtext b) = sq (dtext b') -> sq (dtext (append a b)) = sq (dtext (append a' b')).
Proof. intros a b a' b' H K. rewrite !dtext_append, !sq_app. congruence. Qed.
Lemma sq_tag : forall n al a a', sq (dtext a) = sq (dtext a') -> sq (dtext (tag n al a)) = sq (dtext (tag n al a')).
Proof. intros n al a a' H. rewrite !dtext_tag, !sq_app. congruence. Qed.
Lemma sq_fold : forall l l' a a', Forall2 (fun x y => sq (dtext x) = sq (dtext y)) l l' -> sq (dtext a) = sq (dtext a') -> sq (dtext (fold_left append l a)) = sq (dtext (fold_left append l' a')).
Proof. intros l l' a a' F. revert a a'. induction F as [|x y l l' E F IH]; intros a a' H; [exact H|]. cbn [fold_left]. apply IH. now apply sq_append. Qed.
Lemma sq_concat : forall l l', Forall2 (fun x y => sq (dtext x) = sq (dtext y)) l l' -> sq (dtext (concat_docs l)) = sq (dtext (concat_docs l')).
Proof. intros l l' F. unfold concat_docs. now apply sq_fold. Qed.
Lemma squash_escape : forall t, squash (escape (unwrap_text t)) = squash (escape t).
Proof.
  intros t. unfold escape. induction t as [|c t IH]; [reflexivity|]. unfold unwrap_text in *. cbn [map flat_map]. unfold squash in *.
  etransitivity; [apply map_app|]. etransitivity; [|symmetry; apply map_app]. f_equal; [|exact IH].
  destruct (N.eqb_spec c c_nl) as [->|]; reflexivity.
Qed.
Definition firm_refs (l : list inline) : Prop := forall r, In (ILinkReference r) l -> firm_label (lr_label r).
Lemma firm_refs_app : forall a b, firm_refs (a ++ b) <-> firm_refs a /\ firm_refs b.
Proof.
  intros a b. unfold firm_refs. split; [intros H; split; intros r I; apply H; apply in_or_app; auto|].
  intros [X Y] r I. apply in_app_or in I as [I|I]; auto.
Qed.
Lemma firm_refs_list : forall l, firm_refs (flat_map inline_preorder l) -> Forall (fun i => firm_refs (inline_preorder i)) l.
Proof. intros l H. apply Forall_forall. intros i I r J. apply H. apply in_flat_map. eauto. Qed.
Section Html.
Variable st : html_state.
Lemma html_inline : forall i, firm_refs (inline_preorder i) -> sq (dtext (inline_to_doc st (unwrap_inline i))) = sq (dtext (inline_to_doc st i)).
Proof.
  assert (HL : forall l, Forall (fun i => firm_refs (inline_preorder i) -> sq (dtext (inline_to_doc st (unwrap_inline i))) = sq (dtext (inline_to_doc st i))) l ->
    firm_refs (flat_map inline_preorder l) -> sq (dtext (concat_docs (map (inline_to_doc st) (map unwrap_inline l)))) = sq (dtext (concat_docs (map (inline_to_doc st) l)))).
  { intros l F N. apply sq_concat. rewrite map_map. apply firm_refs_list in N. induction F as [|i l E F IH]; [constructor|]. inversion N; subst. cbn [map]. constructor; auto. }
  induction i as [s| |s|s|d t c Hc|l t Hl Ht|im|c Hc|c Hc|c Hc|s|s|] using inline_ind'; intros N; cbn [unwrap_inline inline_to_doc]; try reflexivity;
    cbn [inline_preorder link_children lr_label lr_text link_destination link_title] in *.
  - cbn [dtext sq option_map]. f_equal. apply squash_escape.
  - apply sq_tag. apply HL; [exact Hc|]. now apply (proj1 (firm_refs_app [_] _)) in N.
  - assert (E : map unwrap_inline l = l). { apply firm_fix. apply (N (LinkReference l t)). now left. }
    rewrite E. destruct (get_link_definition st l); [|reflexivity]. apply sq_tag. apply HL; [exact Ht|]. apply (proj1 (firm_refs_app [_] _)) in N as [_ N]. now apply firm_refs_app in N.
  - apply sq_tag. apply HL; [exact Hc|]. now apply (proj1 (firm_refs_app [_] _)) in N.
  - apply sq_tag. apply HL; [exact Hc|]. now apply (proj1 (firm_refs_app [_] _)) in N.
  - apply sq_tag. apply HL; [exact Hc|]. now apply (proj1 (firm_refs_app [_] _)) in N.
Qed.
Lemma html_inlines : forall l, firm_refs (flat_map inline_preorder l) -> sq (dtext (inlines_to_doc st (unwrap_inlines l))) = sq (dtext (inlines_to_doc st l)).
Proof.
  intros l N. unfold inlines_to_doc, unwrap_inlines. apply sq_concat. rewrite map_map. apply firm_refs_list in N. induction N as [|i l E F IH]; [constructor|]. cbn [map]. constructor; [now apply html_inline|exact IH].
Qed.
Lemma html_cells : forall tagn al row i acc acc', Forall (fun c => firm_refs (flat_map inline_preorder c)) row -> sq (dtext acc) = sq (dtext acc') ->
  sq (dtext (cells_to_doc st tagn al i (map unwrap_inlines row) acc)) = sq (dtext (cells_to_doc st tagn al i row acc')).
Proof.
  intros tagn al row. induction row as [|c row IH]; intros i acc acc' F E; [exact E|]. inversion F; subst. cbn [map cells_to_doc]. apply IH; [assumption|]. apply sq_append; [exact E|]. apply sq_tag. now apply html_inlines.
Qed.
Definition inls (b : block) : list inline := flat_map (fun x => flat_map inline_preorder (block_inlines x)) (block_preorder b).
Lemma html_block : forall b, firm_refs (inls b) -> sq (dtext (block_to_doc st (unwrap_block b))) = sq (dtext (block_to_doc st b)).
Proof.
  assert (SP : forall l, firm_refs (flat_map (fun x => flat_map inline_preorder (block_inlines x)) (flat_map block_preorder l)) -> Forall (fun b => firm_refs (inls b)) l).
  { intros l N. apply Forall_forall. intros b B r I. apply N. unfold inls in I. apply in_flat_map in I as (x & X & I). apply in_flat_map. exists x. split; [|exact I]. apply in_flat_map. eauto. }
  assert (HL : forall l, Forall (fun b => firm_refs (inls b) -> sq (dtext (block_to_doc st (unwrap_block b))) = sq (dtext (block_to_doc st b))) l ->
    Forall (fun b => firm_refs (inls b)) l -> sq (dtext (concat_docs (map (block_to_doc st) (map unwrap_block l)))) = sq (dtext (concat_docs (map (block_to_doc st) l)))).
  { intros l F N. apply sq_concat. rewrite map_map. induction F as [|b l E F IH]; [constructor|]. inversion N; subst. cbn [map]. constructor; auto. }
  induction b as [c|[hk hc]| |bs IH|k items IH|c|s|[dl dd dt]|[rows al]|l bs IH|t bs IH|] using block_ind'; intros N; unfold inls in N; cbn [block_preorder flat_map block_inlines] in N; try reflexivity;
    cbn [unwrap_block block_to_doc].
  - rewrite app_nil_r in N. apply sq_tag. now apply html_inlines.
  - rewrite app_nil_r in N. apply sq_tag. now apply html_inlines.
  - cbn [app] in N. apply sq_tag. apply HL; [exact IH|now apply SP].
  - cbn [app l_items l_kind] in *.
    assert (X : sq (dtext (concat_docs (map (fun it : list_item => tag (lit "li") [] (append (task_to_doc (li_task it)) (concat_docs (map (block_to_doc st) (li_blocks it)))))
        (map (fun it : list_item => {| li_task := li_task it; li_blocks := map unwrap_block (li_blocks it) |}) items)))) =
      sq (dtext (concat_docs (map (fun it : list_item => tag (lit "li") [] (append (task_to_doc (li_task it)) (concat_docs (map (block_to_doc st) (li_blocks it))))) items)))).
    { apply sq_concat. rewrite map_map. induction IH as [|it items H F IH]; [constructor|]. cbn [flat_map] in N. rewrite flat_map_app in N. apply firm_refs_app in N as [N1 N2]. cbn [map li_task li_blocks]. constructor; [|now apply IH].
      apply sq_tag. apply sq_append; [reflexivity|]. apply HL; [exact H|now apply SP]. }
    destruct k as [n|[]]; cbn [list_tag]; apply sq_tag; exact X.
  - rewrite app_nil_r in N. unfold table_to_doc. cbn [t_rows t_alignments] in *.
    assert (R : forall row tg, In row rows -> sq (dtext (table_row_to_doc st (map unwrap_inlines row) tg al)) = sq (dtext (table_row_to_doc st row tg al))).
    { intros row tg I. unfold table_row_to_doc. apply sq_tag. apply html_cells; [|reflexivity]. apply Forall_forall. intros c C r Ir. apply N. apply in_flat_map in Ir as (x & X & Ir). apply in_flat_map. exists x. split; [|exact Ir].
      apply in_concat. exists c. split; [|exact X]. apply in_concat. eauto. }
    destruct rows as [|r rows]; [reflexivity|]. cbn [map]. apply sq_tag. apply sq_append; apply sq_tag; [apply R; now left|].
    assert (G : forall acc acc', sq (dtext acc) = sq (dtext acc') -> sq (dtext (fold_left (fun acc row => append acc (table_row_to_doc st row (lit "td") al)) (map (map unwrap_inlines) rows) acc)) =
      sq (dtext (fold_left (fun acc row => append acc (table_row_to_doc st row (lit "td") al)) rows acc'))).
    { assert (R' : forall row, In row rows -> sq (dtext (table_row_to_doc st (map unwrap_inlines row) (lit "td") al)) = sq (dtext (table_row_to_doc st row (lit "td") al))) by (intros row I; apply R; now right).
      clear -R'. induction rows as [|r' rows IH]; intros acc acc' E; [exact E|]. cbn [map fold_left]. apply IH; [intros row I; apply R'; now right|]. apply sq_append; [exact E|]. apply R'. now left. }
    apply G. reflexivity.
  - cbn [app fd_blocks fd_label] in *. destruct (get_footnote_index st l); [|reflexivity]. apply sq_tag. apply sq_append; [reflexivity|]. apply sq_tag. apply HL; [exact IH|now apply SP].
  - cbn [app ga_blocks ga_type] in *. apply sq_tag. apply sq_append; [reflexivity|]. apply HL; [exact IH|now apply SP].
Qed.
End Html.
Definition firm_defs (l : list block) : Prop := forall x, In (BDefinition x) l -> firm_label (ld_label x).
Lemma index_inline : forall i ix, get_inline_indicies ix (unwrap_inline i) = get_inline_indicies ix i.
Proof. intros [u| | | |[]|[]| | | | | | |] ix; reflexivity. Qed.
Lemma index_inlines : forall l ix, get_inlines_indicies ix (unwrap_inlines l) = get_inlines_indicies ix l.
Proof. induction l as [|i l IH]; intros ix; [reflexivity|]. cbn [unwrap_inlines map]. unfold get_inlines_indicies in *. cbn [fold_left]. rewrite index_inline. apply IH. Qed.
Lemma index_block : forall b ix, firm_defs (block_preorder b) -> get_block_indicies ix (unwrap_block b) = get_block_indicies ix b.
Proof.
  assert (SP : forall l, firm_defs (flat_map block_preorder l) -> Forall (fun b => firm_defs (block_preorder b)) l).
  { intros l N. apply Forall_forall. intros b B r I. apply N. apply in_flat_map. eauto. }
  assert (HL : forall l, Forall (fun b => forall ix, firm_defs (block_preorder b) -> get_block_indicies ix (unwrap_block b) = get_block_indicies ix b) l ->
    Forall (fun b => firm_defs (block_preorder b)) l -> forall ix, fold_left get_block_indicies (map unwrap_block l) ix = fold_left get_block_indicies l ix).
  { intros l F N. induction F as [|b l E F IH]; intros ix; [reflexivity|]. inversion N; subst. cbn [map fold_left]. rewrite E by assumption. now apply IH. }
  assert (C : forall b l, firm_defs (b :: l) -> firm_defs l) by (intros b l N x I; apply N; now right).
  induction b as [c|[hk hc]| |bs IH|k items IH|c|s|[dl dd dt]|[rows al]|l bs IH|t bs IH|] using block_ind'; intros ix N; cbn [block_preorder] in N; try reflexivity;
    cbn [unwrap_block get_block_indicies h_content fd_blocks ga_blocks l_items t_rows ld_label] in *.
  - apply index_inlines.
  - apply index_inlines.
  - apply HL; [exact IH|]. apply SP. exact (C _ _ N).
  - apply C in N. revert ix. induction IH as [|it items H F IH]; intros ix; [reflexivity|]. cbn [map fold_left li_blocks flat_map] in *.
    rewrite HL; [apply IH|exact H|apply SP]; intros x I; apply N; apply in_or_app; auto.
  - assert (E : unwrap_inlines dl = dl) by (apply firm_fix; apply (N (LinkDefinition dl dd dt)); now left). rewrite E. reflexivity.
  - clear. revert ix. induction rows as [|row rows IH]; intros ix; [reflexivity|]. cbn [map fold_left]. rewrite IH. f_equal.
    clear. revert ix. induction row as [|c row IH]; intros ix; [reflexivity|]. cbn [map fold_left]. rewrite index_inlines. apply IH.
  - apply HL; [exact IH|]. apply SP. exact (C _ _ N).
  - apply HL; [exact IH|]. apply SP. exact (C _ _ N).
Qed.
Lemma index_unwrap : forall d, firm d -> get_indicies (unwrap d) = get_indicies d.
Proof.
  intros [bs] [_ F]. unfold get_indicies, unwrap, doc_blocks in *. cbn [d_blocks] in *. generalize index_new. induction bs as [|b bs IH]; intros ix; [reflexivity|].
  cbn [map fold_left flat_map] in *. rewrite index_block; [apply IH|]; intros x I; apply F; apply in_or_app; auto.
Qed.
Lemma html_unwrap : forall uw d cfg, firm d -> sq (render_html uw (unwrap d) cfg) = sq (render_html uw d cfg).
Proof.
  intros uw d cfg F. rewrite !render_html_dtext. unfold html_state_new. rewrite (index_unwrap d F). destruct F as [F _]. destruct d as [bs]. unfold unwrap. cbn [d_blocks].
  unfold blocks_to_doc. apply sq_concat. rewrite map_map. unfold doc_inlines, doc_blocks in F. cbn [d_blocks] in F. generalize (HtmlState cfg (get_indicies (Document bs))). intros st.
  induction bs as [|b bs IH]; [constructor|]. cbn [map flat_map] in *. rewrite flat_map_app in F. constructor.
  - apply html_block. intros r I. apply F. apply in_or_app. now left.
  - apply IH. intros r I. apply F. apply in_or_app. now right.
Qed.
Theorem html_same : forall uw d e cfg, unwrap d = unwrap e -> firm d -> option_map squash (render_html uw d cfg) = option_map squash (render_html uw e cfg).
Proof. intros uw d e cfg E F. change (sq (render_html uw d cfg) = sq (render_html uw e cfg)). rewrite <- (html_unwrap uw d cfg F), <- (html_unwrap uw e cfg (firm_same d e E F)), E. reflexivity. Qed.

(** ** LaTeX *)
Lemma flow_unwrap : forall s, flow (unwrap_text s) = flow s.
Proof.
  assert (W : forall c, is_whitespace (if N.eqb c c_nl then c_sp else c) = is_whitespace c) by (intros c; destruct (N.eqb_spec c c_nl) as [->|]; reflexivity).
  induction s as [|c s IH]; [reflexivity|]. unfold unwrap_text in *. cbn [map flow]. rewrite W. destruct (is_whitespace c) eqn:E.
  - destruct s as [|e s]; [reflexivity|]. cbn [map]. rewrite W. cbn [map] in IH. rewrite IH. reflexivity.
  - rewrite IH. destruct (N.eqb_spec c c_nl) as [->|]; [discriminate|reflexivity].
Qed.
Lemma tex_text : forall s, tex_inline (fun _ => None) (fun _ => None) (IText (unwrap_text s)) = tex_inline (fun _ => None) (fun _ => None) (IText s).
Proof.
  intros s. cbn [tex_inline]. rewrite flow_unwrap.
  assert (W : forallb is_whitespace (unwrap_text s) = forallb is_whitespace s).
  { unfold unwrap_text. induction s as [|c s IH]; [reflexivity|]. cbn [map forallb]. rewrite IH. f_equal. destruct (N.eqb_spec c c_nl) as [->|]; reflexivity. }
  rewrite W. destruct (forallb is_whitespace s); [|reflexivity]. f_equal. unfold unwrap_text. rewrite map_map. apply map_ext. intros c.
  destruct (N.eqb_spec c c_nl) as [->|]; reflexivity.
Qed.
Section Tex.
Variable cfg : latex_config.
Variable num : str -> option N.
Variable def : list inline -> option link_definition.
Local Notation ti := (tex_inline num def).
Lemma tex_inline_unwrap : forall i, firm_refs (inline_preorder i) -> ti (unwrap_inline i) = ti i.
Proof.
  assert (HL : forall l, Forall (fun i => firm_refs (inline_preorder i) -> ti (unwrap_inline i) = ti i) l ->
    firm_refs (flat_map inline_preorder l) -> flat_map ti (map unwrap_inline l) = flat_map ti l).
  { intros l F N. apply firm_refs_list in N. induction F as [|i l E F IH]; [constructor|]. inversion N; subst. cbn [map flat_map]. rewrite E by assumption. f_equal. auto. }
  assert (C : forall i l, firm_refs (i :: l) -> firm_refs l) by (intros i l N r I; apply N; now right).
  induction i as [s| |s|s|d t c Hc|l t Hl Ht|im|c Hc|c Hc|c Hc|s|s|] using inline_ind'; intros N; cbn [unwrap_inline]; try reflexivity;
    cbn [inline_preorder link_children lr_label lr_text] in *; cbn [tex_inline link_children link_destination link_title].
  - exact (tex_text s).
  - rewrite HL; [reflexivity|exact Hc|exact (C _ _ N)].
  - assert (E : map unwrap_inline l = l). { apply firm_fix. apply (N (LinkReference l t)). now left. }
    cbn [lr_label lr_text]. rewrite E, (HL t); [reflexivity|exact Ht|]. apply C in N. now apply firm_refs_app in N.
  - rewrite HL; [reflexivity|exact Hc|exact (C _ _ N)].
  - rewrite HL; [reflexivity|exact Hc|exact (C _ _ N)].
  - rewrite HL; [reflexivity|exact Hc|exact (C _ _ N)].
Qed.
Lemma tex_inlines_unwrap : forall l, firm_refs (flat_map inline_preorder l) -> tex_inlines num def (unwrap_inlines l) = tex_inlines num def l.
Proof.
  intros l N. unfold tex_inlines, unwrap_inlines. apply firm_refs_list in N. induction N as [|i l E F IH]; [reflexivity|]. cbn [map flat_map]. now rewrite tex_inline_unwrap, IH.
Qed.
Lemma tex_block_unwrap : forall b, firm_refs (inls b) -> tex_block cfg num def (unwrap_block b) = tex_block cfg num def b.
Proof.
  assert (SP : forall l, firm_refs (flat_map (fun x => flat_map inline_preorder (block_inlines x)) (flat_map block_preorder l)) -> Forall (fun b => firm_refs (inls b)) l).
  { intros l N. apply Forall_forall. intros b B r I. apply N. unfold inls in I. apply in_flat_map in I as (x & X & I). apply in_flat_map. exists x. split; [|exact I]. apply in_flat_map. eauto. }
  assert (HL : forall l, Forall (fun b => firm_refs (inls b) -> tex_block cfg num def (unwrap_block b) = tex_block cfg num def b) l ->
    Forall (fun b => firm_refs (inls b)) l -> map (tex_block cfg num def) (map unwrap_block l) = map (tex_block cfg num def) l).
  { intros l F N. rewrite map_map. induction F as [|b l E F IH]; [reflexivity|]. inversion N; subst. cbn [map]. rewrite E by assumption. f_equal. auto. }
  induction b as [c|[hk hc]| |bs IH|k items IH|c|s|[dl dd dt]|[rows al]|l bs IH|t bs IH|] using block_ind'; intros N; unfold inls in N; cbn [block_preorder flat_map block_inlines] in N; try reflexivity;
    cbn [unwrap_block tex_block h_kind h_content].
  - rewrite app_nil_r in N. now apply tex_inlines_unwrap.
  - rewrite app_nil_r in N. cbn [h_content] in N. now rewrite tex_inlines_unwrap.
  - cbn [app] in N. rewrite HL; [reflexivity|exact IH|now apply SP].
  - cbn [app l_items l_kind] in *. f_equal. induction IH as [|it items H F IH]; [reflexivity|]. cbn [flat_map] in N. rewrite flat_map_app in N. apply firm_refs_app in N as [N1 N2].
    cbn [map flat_map li_task li_blocks]. rewrite IH by exact N2. rewrite HL; [reflexivity|exact H|now apply SP].
  - rewrite app_nil_r in N. cbn [t_rows] in N. unfold tex_table. cbn [t_rows t_alignments].
    assert (R : forall row, In row rows -> tex_row num def (map unwrap_inlines row) = tex_row num def row).
    { intros row I. unfold tex_row. do 2 f_equal. rewrite map_map. apply map_ext_in. intros c C. apply tex_inlines_unwrap. intros r Ir. apply N. apply in_flat_map in Ir as (x & X & Ir). apply in_flat_map. exists x. split; [|exact Ir].
      apply in_concat. exists c. split; [|exact X]. apply in_concat. eauto. }
    assert (RR : forall (g : list sch -> list sch) rs, incl rs rows -> flat_map (fun r => g (tex_row num def r)) (map (map unwrap_inlines) rs) = flat_map (fun r => g (tex_row num def r)) rs).
    { intros g rs I. induction rs as [|r rs IHr]; [reflexivity|]. cbn [map flat_map]. rewrite R by (apply I; now left). f_equal. apply IHr. intros x X. apply I. now right. }
    destruct rows as [|r rows]; [reflexivity|]. cbn [map]. rewrite (R r) by now left.
    rewrite !(RR (fun x => x ++ [] ++ nl) rows), !(RR (fun x => x ++ chs (lit " \\") ++ nl) rows) by (intros x X; now right). reflexivity.
  - cbn [app fd_blocks fd_label] in *. destruct (num l); [|reflexivity]. rewrite HL; [reflexivity|exact IH|now apply SP].
  - cbn [app ga_blocks ga_type] in *. rewrite HL; [reflexivity|exact IH|now apply SP].
Qed.
End Tex.
Lemma outer_unwrap : forall b, outer (unwrap_block b) = map unwrap_block (outer b).
Proof.
  assert (HL : forall l, Forall (fun b => outer (unwrap_block b) = map unwrap_block (outer b)) l ->
    flat_map outer (map unwrap_block l) = map unwrap_block (flat_map outer l)).
  { induction 1 as [|b l E F IH]; [reflexivity|]. cbn [map flat_map]. rewrite map_app. congruence. }
  induction b as [c|[hk hc]| |bs IH|k items IH|c|s|[]|[]|l bs IH|t bs IH|] using block_ind'; try reflexivity; cbn [unwrap_block outer map fd_blocks ga_blocks l_items].
  - f_equal. now apply HL.
  - f_equal. induction IH as [|it items F _ IH2]; [reflexivity|]. cbn [map flat_map li_blocks]. rewrite map_app, IH2. f_equal. now apply HL.
  - f_equal. now apply HL.
Qed.
Lemma outer_in : forall b x, In x (outer b) -> In x (block_preorder b).
Proof.
  induction b as [c|[hk hc]| |bs IH|k items IH|c|s|[]|[]|l bs IH|t bs IH|] using block_ind'; intros x I; try exact I; cbn [outer block_preorder fd_blocks ga_blocks l_items] in *; (destruct I as [I|I]; [now left|right]).
  - apply in_flat_map in I as (b & B & I). apply in_flat_map. exists b. split; [exact B|]. rewrite Forall_forall in IH. now apply IH.
  - apply in_flat_map in I as (it & B & I). apply in_flat_map. exists it. split; [exact B|]. rewrite Forall_forall in IH. specialize (IH it B). rewrite Forall_forall in IH.
    apply in_flat_map in I as (b & B' & I). apply in_flat_map. exists b. split; [exact B'|]. now apply IH.
  - contradiction.
  - apply in_flat_map in I as (b & B & I). apply in_flat_map. exists b. split; [exact B|]. rewrite Forall_forall in IH. now apply IH.
Qed.
Lemma outers_unwrap : forall d, outer_blocks (unwrap d) = map unwrap_block (outer_blocks d).
Proof.
  intros [bs]. unfold outer_blocks, unwrap. cbn [d_blocks]. induction bs as [|b bs IH]; [reflexivity|]. cbn [map flat_map]. rewrite map_app, IH. f_equal. apply outer_unwrap.
Qed.
Lemma labels_unwrap : forall d, footnote_labels (unwrap d) = footnote_labels d.
Proof.
  intros d. unfold footnote_labels. rewrite outers_unwrap. induction (outer_blocks d) as [|b l IH]; [reflexivity|]. cbn [map flat_map]. rewrite IH. f_equal.
  destruct b as [c|[]| |bs|[]|c|s|[]|[]|[]|[]|]; reflexivity.
Qed.
Lemma definitions_unwrap : forall d, firm d -> outer_definitions (unwrap d) = outer_definitions d.
Proof.
  intros d F. unfold outer_definitions. rewrite outers_unwrap.
  assert (N : firm_defs (outer_blocks d)).
  { intros x I. apply F. unfold outer_blocks, doc_blocks in *. apply in_flat_map in I as (b & B & I). apply in_flat_map. exists b. split; [exact B|now apply outer_in]. }
  induction (outer_blocks d) as [|b l IH]; [reflexivity|]. cbn [map flat_map]. rewrite IH by (intros x I; apply N; now right). f_equal.
  destruct b as [c|[]| |bs|[]|c|s|[dl dd dt]|[]|[]|[]|]; try reflexivity. cbn [unwrap_block]. do 2 f_equal. apply firm_fix. apply (N (LinkDefinition dl dd dt)). now left.
Qed.
Lemma tex_unwrap : forall cfg d, firm d -> tex_view cfg (unwrap d) = tex_view cfg d.
Proof.
  intros cfg d F. unfold tex_view. f_equal.
  assert (E : forall b, tex_block cfg (tex_number (unwrap d)) (tex_resolve (unwrap d)) b = tex_block cfg (tex_number d) (tex_resolve d) b).
  { intros b. unfold tex_number, tex_resolve. now rewrite labels_unwrap, definitions_unwrap. }
  rewrite (map_ext _ _ E). destruct F as [F _]. generalize (tex_number d), (tex_resolve d). intros num def. clear E.
  destruct d as [bs]. unfold unwrap. cbn [d_blocks]. rewrite map_map. apply map_ext_in. intros b B. apply tex_block_unwrap. intros r I. apply F.
  unfold doc_inlines, doc_blocks. cbn [d_blocks]. unfold inls in I. apply in_flat_map in I as (x & X & I). apply in_flat_map. exists x. split; [|exact I]. apply in_flat_map. eauto.
Qed.
Lemma layout_squash : forall t a b, layout t a -> layout t b -> squash a = squash b.
Proof.
  intros t a b H. revert b. unfold layout. induction H as [|x c t a X F IH]; intros b K; inversion K; subst; [reflexivity|]. cbn [squash map]. f_equal; [|now apply IH].
  inversion X; subst; match goal with H : sch_is _ _ |- _ => inversion H; subst end; reflexivity.
Qed.
Theorem latex_same : forall uw1 uw2 d e cfg, unwrap d = unwrap e -> firm d -> option_map squash (render_latex uw1 d cfg) = option_map squash (render_latex uw2 e cfg).
Proof.
  intros uw1 uw2 d e cfg E F. destruct (LatexFacts.render_latex_view uw1 d cfg) as (o1 & E1 & L1). destruct (LatexFacts.render_latex_view uw2 e cfg) as (o2 & E2 & L2).
  rewrite E1, E2. cbn [option_map]. f_equal. eapply layout_squash; [exact L1|]. rewrite <- (tex_unwrap cfg d F), E, (tex_unwrap cfg e (firm_same d e E F)). exact L2.
Qed.
