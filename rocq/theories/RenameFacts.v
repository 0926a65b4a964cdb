(** Proof of C104. *)
From Coq Require Import String Lia.
From Verif Require Import HtmlFacts HtmlProps LatexProps SpecLatex SpecHtml SpecFormat SpecRename FormatFacts HtmlPrinter.
Import ListNotations.
Open Scope list_scope.

Section Names.
Variables (f : str -> str) (g : list inline -> list inline) (P : str -> Prop) (Q : list inline -> Prop).
Hypothesis Hf : one_to_one P f.
Hypothesis Hg : one_to_one Q g.
Local Notation ri := (rename_inline f g).
Local Notation ris := (rename_inlines f g).
Local Notation rb := (rename_block f g).
Definition node_ok (i : inline) : Prop :=
  match i with IFootnoteReference l => P l | ILinkReference r => Q (lr_label r) | _ => True end.
Definition iok (l : list inline) : Prop := Forall node_ok l.
Definition blk_ok (b : block) : Prop :=
  match b with
  | BFootnoteDefinition x => P (fd_label x)
  | BDefinition x => Q (ld_label x) /\ notes (g (ld_label x)) = map f (notes (ld_label x))
  | _ => True
  end.
Definition bok (b : block) : Prop := Forall blk_ok (block_preorder b) /\ iok (inls b).
Lemma iok_app : forall a b, iok (a ++ b) <-> iok a /\ iok b.
Proof. intros a b. apply Forall_app. Qed.
Lemma iok_list : forall l, iok (flat_map inline_preorder l) -> Forall (fun i => iok (inline_preorder i)) l.
Proof. intros l H. apply Forall_forall. intros i I. unfold iok in *. rewrite Forall_forall in *. intros y Y. apply H. apply in_flat_map. eauto. Qed.
Lemma bok_list : forall l, Forall blk_ok (flat_map block_preorder l) -> iok (flat_map (fun x => flat_map inline_preorder (block_inlines x)) (flat_map block_preorder l)) -> Forall bok l.
Proof.
  intros l H K. apply Forall_forall. intros b B. unfold iok in *. rewrite Forall_forall in *. split; apply Forall_forall.
  - intros x X. apply H. apply in_flat_map. eauto.
  - intros i I. apply K. unfold inls in I. apply in_flat_map in I as (x & X & I). apply in_flat_map. exists x. split; [|exact I]. apply in_flat_map. eauto.
Qed.

(** ** Indices *)
Definition def_of (x : link_definition) : link_definition := LinkDefinition (g (ld_label x)) (ld_destination x) (ld_title x).
Definition ren_index (ix : index) : index :=
  Index (map (fun p => (f (fst p), snd p)) (footnote_indices ix)) (map (fun p => (g (fst p), def_of (snd p))) (link_definitions ix)) (last_footnote_index ix).
Definition ix_ok (ix : index) : Prop := Forall (fun p => P (fst p)) (footnote_indices ix) /\ Forall (fun p => Q (fst p)) (link_definitions ix).
Lemma get_note : forall l m, P l -> Forall (fun p : str * N => P (fst p)) m -> map_get str_eqb (f l) (map (fun p => (f (fst p), snd p)) m) = map_get str_eqb l m.
Proof.
  intros l m Hl F. induction F as [|[k v] m H F IH]; [reflexivity|]. cbn [map map_get fst snd]. rewrite IH.
  destruct (str_eqb l k) eqn:E.
  - apply str_eqb_eq in E. subst k. now rewrite str_eqb_refl.
  - destruct (str_eqb (f l) (f k)) eqn:E2; [|reflexivity]. apply str_eqb_eq in E2. apply Hf in E2; [|exact Hl|exact H]. subst k. now rewrite str_eqb_refl in E.
Qed.
Lemma get_link : forall l m, Q l -> Forall (fun p : list inline * link_definition => Q (fst p)) m ->
  map_get (list_eqb inline_eqb) (g l) (map (fun p => (g (fst p), def_of (snd p))) m) = option_map def_of (map_get (list_eqb inline_eqb) l m).
Proof.
  intros l m Hl F. induction F as [|[k v] m H F IH]; [reflexivity|]. cbn [map map_get fst snd]. rewrite IH.
  destruct (list_eqb inline_eqb l k) eqn:E.
  - apply label_eqb_eq in E. subst k. now rewrite (proj2 (label_eqb_eq _ _)).
  - destruct (list_eqb inline_eqb (g l) (g k)) eqn:E2; [|reflexivity]. apply label_eqb_eq in E2. apply Hg in E2; [|exact Hl|exact H]. subst k. now rewrite (proj2 (label_eqb_eq _ _)) in E.
Qed.
Lemma add_ok : forall ix l, ix_ok ix -> P l -> ix_ok (add_footnote ix l) /\ add_footnote (ren_index ix) (f l) = ren_index (add_footnote ix l).
Proof.
  intros ix l [H1 H2] Hl. unfold add_footnote. cbn [ren_index footnote_indices link_definitions last_footnote_index]. rewrite get_note by assumption.
  destruct (map_get str_eqb l (footnote_indices ix)); [now repeat split|]. split; [|reflexivity]. split; [now constructor|exact H2].
Qed.
Lemma index_inlines_ren : forall l ix, ix_ok ix -> iok (flat_map inline_preorder l) -> ix_ok (get_inlines_indicies ix l) /\ get_inlines_indicies (ren_index ix) (ris l) = ren_index (get_inlines_indicies ix l).
Proof.
  induction l as [|i l IH]; intros ix Hx Hi; [now split|]. cbn [flat_map] in Hi. apply iok_app in Hi as [Hi Hl]. unfold get_inlines_indicies in *. cbn [rename_inlines map fold_left].
  assert (S : ix_ok (get_inline_indicies ix i) /\ get_inline_indicies (ren_index ix) (ri i) = ren_index (get_inline_indicies ix i)).
  { destruct i as [s| |s|s|[]|[]| | | | | |s|]; try (now split). cbn [rename_inline get_inline_indicies]. apply add_ok; [exact Hx|]. now inversion Hi. }
  destruct S as [S1 S2]. rewrite S2. now apply IH.
Qed.
(** only the footnotes of a label matter *)
Lemma index_notes : forall l ix, get_inlines_indicies ix l = fold_left add_footnote (notes l) ix.
Proof.
  induction l as [|i l IH]; intros ix; [reflexivity|]. unfold get_inlines_indicies in *. cbn [fold_left notes flat_map]. rewrite fold_left_app, IH. f_equal. now destruct i.
Qed.
Lemma index_label : forall l l' ix, ix_ok ix -> Forall P (notes l) -> notes l' = map f (notes l) -> ix_ok (get_inlines_indicies ix l) /\ get_inlines_indicies (ren_index ix) l' = ren_index (get_inlines_indicies ix l).
Proof.
  intros l l' ix Hx F E. rewrite !index_notes, E. clear E. revert ix Hx. induction F as [|x n H F IH]; intros ix Hx; [now split|]. cbn [map fold_left].
  destruct (add_ok ix x Hx H) as [S1 S2]. rewrite S2. now apply IH.
Qed.
Lemma notes_ok : forall l, iok (flat_map inline_preorder l) -> Forall P (notes l).
Proof.
  intros l H. apply Forall_forall. intros x X. unfold notes in X. apply in_flat_map in X as (i & I & X). destruct i as [| | | | | | | | | | |s|]; try contradiction. destruct X as [<-|[]].
  unfold iok in H. rewrite Forall_forall in H. apply (H (IFootnoteReference s)). apply in_flat_map. exists (IFootnoteReference s). split; [exact I|now left].
Qed.
Lemma index_block_ren : forall b ix, ix_ok ix -> bok b -> ix_ok (get_block_indicies ix b) /\ get_block_indicies (ren_index ix) (rb b) = ren_index (get_block_indicies ix b).
Proof.
  assert (HL : forall l, Forall (fun b => forall ix, ix_ok ix -> bok b -> ix_ok (get_block_indicies ix b) /\ get_block_indicies (ren_index ix) (rb b) = ren_index (get_block_indicies ix b)) l ->
    Forall bok l -> forall ix, ix_ok ix -> ix_ok (fold_left get_block_indicies l ix) /\ fold_left get_block_indicies (map rb l) (ren_index ix) = ren_index (fold_left get_block_indicies l ix)).
  { intros l F N. induction F as [|b l E F IH]; intros ix Hx; [now split|]. inversion N; subst. cbn [map fold_left]. destruct (E ix Hx) as [S1 S2]; [assumption|]. rewrite S2. now apply IH. }
  induction b as [c|[hk hc]| |bs IH|k items IH|c|s|[dl dd dt]|[rows al]|l bs IH|t bs IH|] using block_ind'; intros ix Hx [B I]; unfold inls in I; cbn [block_preorder flat_map block_inlines] in B, I; try (now split);
    cbn [rename_block get_block_indicies h_content fd_blocks ga_blocks l_items t_rows ld_label fd_label] in *.
  - rewrite app_nil_r in I. now apply index_inlines_ren.
  - rewrite app_nil_r in I. now apply index_inlines_ren.
  - apply HL; [exact IH| |exact Hx]. apply bok_list; [now inversion B|exact I].
  - assert (B2 : Forall blk_ok (flat_map (fun it => flat_map block_preorder (li_blocks it)) items)) by now inversion B. clear B. cbn [app] in I. revert ix Hx. induction IH as [|it items H F IH]; intros ix Hx; [now split|].
    cbn [map fold_left li_blocks flat_map] in *. rewrite flat_map_app in I. apply Forall_app in B2 as [B1 B2]. apply iok_app in I as [I1 I2].
    destruct (HL _ H (bok_list _ B1 I1) ix Hx) as [S1 S2]. rewrite S2. now apply IH.
  - rewrite app_nil_r in I. inversion B as [|? ? B0 _]; subst. cbn [blk_ok ld_label] in B0. destruct B0 as [B1 B2].
    apply (index_label dl (g dl) (Index (footnote_indices ix) (map_insert dl (LinkDefinition dl dd dt) (link_definitions ix)) (last_footnote_index ix))); [|now apply notes_ok|exact B2].
    destruct Hx as [X1 X2]. split; [exact X1|]. now constructor.
  - rewrite app_nil_r in I. clear B. revert ix Hx I. induction rows as [|row rows IH]; intros ix Hx I; [now split|]. cbn [map fold_left concat] in *. rewrite concat_app, flat_map_app in I. apply iok_app in I as [I1 I2].
    assert (S : ix_ok (fold_left get_inlines_indicies row ix) /\ fold_left get_inlines_indicies (map ris row) (ren_index ix) = ren_index (fold_left get_inlines_indicies row ix)).
    { clear IH I2. revert ix Hx I1. induction row as [|c row IH]; intros ix Hx I; [now split|]. cbn [map fold_left concat] in *. rewrite flat_map_app in I. apply iok_app in I as [I1 I2].
      destruct (index_inlines_ren c ix Hx I1) as [S1 S2]. rewrite S2. now apply IH. }
    destruct S as [S1 S2]. rewrite S2. now apply IH.
  - apply HL; [exact IH| |exact Hx]. apply bok_list; [now inversion B|exact I].
  - apply HL; [exact IH| |exact Hx]. apply bok_list; [now inversion B|exact I].
Qed.

(** ** HTML *)
Section Html.
Variables (cfg : html_config) (ix : index).
Hypothesis Hx : ix_ok ix.
Let st := HtmlState cfg ix.
Let st' := HtmlState cfg (ren_index ix).
Lemma html_inline_ren : forall i, iok (inline_preorder i) -> inline_to_doc st' (ri i) = inline_to_doc st i.
Proof.
  assert (HL : forall l, Forall (fun i => iok (inline_preorder i) -> inline_to_doc st' (ri i) = inline_to_doc st i) l ->
    iok (flat_map inline_preorder l) -> map (inline_to_doc st') (map ri l) = map (inline_to_doc st) l).
  { intros l F N. rewrite map_map. apply iok_list in N. induction F as [|i l E F IH]; [reflexivity|]. inversion N; subst. cbn [map]. rewrite E by assumption. f_equal. auto. }
  destruct Hx as [X1 X2].
  induction i as [s| |s|s|d t c Hc|l t Hl Ht|im|c Hc|c Hc|c Hc|s|s|] using inline_ind'; intros N; cbn [rename_inline inline_to_doc]; try reflexivity;
    cbn [inline_preorder link_children lr_label lr_text link_destination link_title] in *; inversion N as [|? ? N1 N2]; subst.
  - now rewrite HL.
  - unfold get_link_definition, st', st. cbn [hs_index ren_index link_definitions]. rewrite get_link by assumption.
    destruct (map_get (list_eqb inline_eqb) l (link_definitions ix)); [|reflexivity]. cbn [option_map def_of ld_destination ld_title].
    apply Forall_app in N2 as [_ N2]. fold st st'. now rewrite HL.
  - now rewrite HL.
  - now rewrite HL.
  - now rewrite HL.
  - unfold get_footnote_index, st', st. cbn [hs_index ren_index footnote_indices]. now rewrite get_note.
Qed.
Lemma html_inlines_ren : forall l, iok (flat_map inline_preorder l) -> inlines_to_doc st' (ris l) = inlines_to_doc st l.
Proof.
  intros l N. unfold inlines_to_doc, rename_inlines. rewrite map_map. f_equal. apply map_ext_in. intros i I. apply html_inline_ren. apply iok_list in N. rewrite Forall_forall in N. now apply N.
Qed.
Lemma html_cells_ren : forall tg al row i acc, iok (flat_map inline_preorder (concat row)) -> cells_to_doc st' tg al i (map ris row) acc = cells_to_doc st tg al i row acc.
Proof.
  intros tg al row. induction row as [|c row IH]; intros i acc N; [reflexivity|]. cbn [map cells_to_doc concat] in *. rewrite flat_map_app in N. apply iok_app in N as [N1 N2].
  rewrite html_inlines_ren by exact N1. now apply IH.
Qed.
Lemma html_block_ren : forall b, bok b -> block_to_doc st' (rb b) = block_to_doc st b.
Proof.
  assert (HL : forall l, Forall (fun b => bok b -> block_to_doc st' (rb b) = block_to_doc st b) l -> Forall bok l -> map (block_to_doc st') (map rb l) = map (block_to_doc st) l).
  { intros l F N. rewrite map_map. induction F as [|b l E F IH]; [reflexivity|]. inversion N; subst. cbn [map]. rewrite E by assumption. f_equal. auto. }
  induction b as [c|[hk hc]| |bs IH|k items IH|c|s|[dl dd dt]|[rows al]|l bs IH|t bs IH|] using block_ind'; intros [B I]; unfold inls in I; cbn [block_preorder flat_map block_inlines] in B, I; try reflexivity;
    cbn [rename_block block_to_doc h_kind h_content] in *.
  - rewrite app_nil_r in I. now rewrite html_inlines_ren.
  - rewrite app_nil_r in I. now rewrite html_inlines_ren.
  - inversion B; subst. cbn [app] in I. rewrite HL; [reflexivity|exact IH|now apply bok_list].
  - cbn [l_items l_kind] in *. f_equal. f_equal. rewrite map_map.
    assert (B2 : Forall blk_ok (flat_map (fun it => flat_map block_preorder (li_blocks it)) items)) by now inversion B. clear B. cbn [app] in I. induction IH as [|it items H F IH]; [reflexivity|].
    cbn [flat_map] in B2, I. rewrite flat_map_app in I. apply Forall_app in B2 as [B1 B2]. apply iok_app in I as [I1 I2]. specialize (IH I2 B2). cbn [map li_task li_blocks] in IH |- *. rewrite IH. f_equal. rewrite HL; [reflexivity|exact H|now apply bok_list].
  - rewrite app_nil_r in I. unfold table_to_doc. cbn [t_rows t_alignments] in *.
    assert (R : forall row tg, iok (flat_map inline_preorder (concat row)) -> table_row_to_doc st' (map ris row) tg al = table_row_to_doc st row tg al).
    { intros row tg N. unfold table_row_to_doc. now rewrite html_cells_ren. }
    destruct rows as [|r rows]; [reflexivity|]. cbn [map]. cbn [concat] in I. rewrite concat_app, flat_map_app in I. apply iok_app in I as [I1 I2]. rewrite R by exact I1.
    assert (G : forall acc, fold_left (fun acc row => append acc (table_row_to_doc st' row (lit "td") al)) (map (map ris) rows) acc =
      fold_left (fun acc row => append acc (table_row_to_doc st row (lit "td") al)) rows acc).
    { clear B I1. induction rows as [|r' rows IH]; intros acc; [reflexivity|]. cbn [map fold_left concat] in *. rewrite concat_app, flat_map_app in I2. apply iok_app in I2 as [I1 I2]. rewrite R by exact I1. now apply IH. }
    now rewrite G.
  - inversion B as [|? ? B1 B2]; subst. cbn [app fd_blocks fd_label blk_ok] in *. unfold get_footnote_index. cbn [st st' hs_index ren_index footnote_indices]. rewrite get_note; [|exact B1|apply Hx].
    destruct (map_get str_eqb l (footnote_indices ix)); [|reflexivity]. fold st st'. rewrite HL; [reflexivity|exact IH|now apply bok_list].
  - inversion B; subst. cbn [app ga_blocks ga_type] in *. rewrite HL; [reflexivity|exact IH|now apply bok_list].
Qed.
End Html.
Lemma html_names : forall uw bs cfg, Forall bok bs -> render_html uw (rename f g (Document bs)) cfg = render_html uw (Document bs) cfg.
Proof.
  intros uw bs cfg F. unfold render_html, rename, html_state_new. cbn [d_blocks].
  assert (S : forall ix, ix_ok ix -> ix_ok (fold_left get_block_indicies bs ix) /\ fold_left get_block_indicies (map rb bs) (ren_index ix) = ren_index (fold_left get_block_indicies bs ix)).
  { induction F as [|b l E F IH]; intros ix Hx; [now split|]. cbn [map fold_left]. destruct (index_block_ren b ix Hx E) as [S1 S2]. rewrite S2. now apply IH. }
  destruct (S index_new) as [S1 S2]; [split; constructor|].
  change (get_indicies {| d_blocks := map rb bs |}) with (fold_left get_block_indicies (map rb bs) (ren_index index_new)). rewrite S2. fold (get_indicies (Document bs)) in *.
  change (fold_left get_block_indicies bs index_new) with (get_indicies (Document bs)) in *. f_equal. unfold blocks_to_doc. f_equal. rewrite map_map. apply map_ext_in. intros b I.
  rewrite Forall_forall in F. apply html_block_ren; auto.
Qed.
End Names.
Lemma doc_bok : forall f g d, keeps_notes f g d -> Forall (bok f g (note_label d) (link_label d)) (d_blocks d).
Proof.
  intros f g d K. apply bok_list.
  - apply Forall_forall. intros b B. change (In b (doc_blocks d)) in B. destruct b as [c|h| |bs|l|c|s|x|t|x|a|]; try exact I.
    + split; [right; now exists x|now apply K].
    + right. now exists x.
  - apply Forall_forall. intros i X. change (In i (doc_inlines d)) in X. destruct i as [| | | | |r| | | | | |s|]; try exact I.
    + left. now exists r.
    + now left.
Qed.
Theorem html_rename : forall uw f g d cfg, one_to_one (note_label d) f -> one_to_one (link_label d) g -> keeps_notes f g d ->
  render_html uw (rename f g d) cfg = render_html uw d cfg.
Proof.
  intros uw f g d cfg Hf Hg K. pose proof (doc_bok f g d K) as F. destruct d as [bs]. eapply html_names; eassumption.
Qed.

(** ** LaTeX *)
Section Tex.
Variables (f : str -> str) (g : list inline -> list inline) (cfg : latex_config).
Variables (num num' : str -> option N) (def def' : list inline -> option link_definition).
Local Notation ri := (rename_inline f g).
Local Notation ris := (rename_inlines f g).
Local Notation rb := (rename_block f g).
Definition same_node (i : inline) : Prop :=
  match i with
  | IFootnoteReference l => num' (f l) = num l /\ num l <> None
  | ILinkReference r => def' (g (lr_label r)) = option_map (def_of g) (def (lr_label r)) /\ def (lr_label r) <> None
  | _ => True
  end.
Definition same_block (b : block) : Prop := match b with BFootnoteDefinition x => num' (f (fd_label x)) = num (fd_label x) | _ => True end.
Definition sok (l : list inline) : Prop := Forall same_node l.
Lemma sok_list : forall l, sok (flat_map inline_preorder l) -> Forall (fun i => sok (inline_preorder i)) l.
Proof. intros l H. apply Forall_forall. intros i I. unfold sok in *. rewrite Forall_forall in *. intros y Y. apply H. apply in_flat_map. eauto. Qed.
Lemma tex_inline_ren : forall i, sok (inline_preorder i) -> tex_inline num' def' (ri i) = tex_inline num def i.
Proof.
  assert (HL : forall l, Forall (fun i => sok (inline_preorder i) -> tex_inline num' def' (ri i) = tex_inline num def i) l ->
    sok (flat_map inline_preorder l) -> flat_map (tex_inline num' def') (map ri l) = flat_map (tex_inline num def) l).
  { intros l F N. apply sok_list in N. induction F as [|i l E F IH]; [reflexivity|]. inversion N; subst. cbn [map flat_map]. rewrite E by assumption. f_equal. auto. }
  induction i as [s| |s|s|d t c Hc|l t Hl Ht|im|c Hc|c Hc|c Hc|s|s|] using inline_ind'; intros N; cbn [rename_inline tex_inline]; try reflexivity;
    cbn [inline_preorder link_children lr_label lr_text link_destination link_title] in *; inversion N as [|? ? N1 N2]; subst.
  - now rewrite HL.
  - destruct N1 as [N1 N3]. cbn [lr_label] in *. rewrite N1. destruct (def l) as [x|]; [|congruence]. cbn [option_map def_of ld_destination]. apply Forall_app in N2 as [_ N2]. now rewrite HL.
  - now rewrite HL.
  - now rewrite HL.
  - now rewrite HL.
  - destruct N1 as [N1 N3]. rewrite N1. destruct (num s); [reflexivity|congruence].
Qed.
Lemma tex_inlines_ren : forall l, sok (flat_map inline_preorder l) -> tex_inlines num' def' (ris l) = tex_inlines num def l.
Proof.
  intros l N. unfold tex_inlines, rename_inlines. apply sok_list in N. induction N as [|i l E F IH]; [reflexivity|]. cbn [map flat_map]. now rewrite tex_inline_ren, IH.
Qed.
Definition tok (b : block) : Prop := Forall same_block (block_preorder b) /\ sok (inls b).
Lemma tok_list : forall l, Forall same_block (flat_map block_preorder l) -> sok (flat_map (fun x => flat_map inline_preorder (block_inlines x)) (flat_map block_preorder l)) -> Forall tok l.
Proof.
  intros l H K. apply Forall_forall. intros b B. unfold sok in *. rewrite Forall_forall in *. split; apply Forall_forall.
  - intros x X. apply H. apply in_flat_map. eauto.
  - intros i I. apply K. unfold inls in I. apply in_flat_map in I as (x & X & I). apply in_flat_map. exists x. split; [|exact I]. apply in_flat_map. eauto.
Qed.
Lemma tex_block_ren : forall b, tok b -> tex_block cfg num' def' (rb b) = tex_block cfg num def b.
Proof.
  assert (HL : forall l, Forall (fun b => tok b -> tex_block cfg num' def' (rb b) = tex_block cfg num def b) l -> Forall tok l ->
    map (tex_block cfg num' def') (map rb l) = map (tex_block cfg num def) l).
  { intros l F N. rewrite map_map. induction F as [|b l E F IH]; [reflexivity|]. inversion N; subst. cbn [map]. rewrite E by assumption. f_equal. auto. }
  induction b as [c|[hk hc]| |bs IH|k items IH|c|s|[dl dd dt]|[rows al]|l bs IH|t bs IH|] using block_ind'; intros [B N]; unfold inls in N; cbn [block_preorder flat_map block_inlines] in B, N; try reflexivity;
    cbn [rename_block tex_block h_kind h_content].
  - rewrite app_nil_r in N. now apply tex_inlines_ren.
  - rewrite app_nil_r in N. cbn [h_content] in N. now rewrite tex_inlines_ren.
  - inversion B; subst. cbn [app] in N. rewrite HL; [reflexivity|exact IH|now apply tok_list].
  - cbn [app l_items l_kind] in *. assert (B2 : Forall same_block (flat_map (fun it => flat_map block_preorder (li_blocks it)) items)) by now inversion B. clear B.
    f_equal. induction IH as [|it items H F IH]; [reflexivity|]. cbn [flat_map] in N, B2. rewrite flat_map_app in N. apply Forall_app in N as [N1 N2]. apply Forall_app in B2 as [B1 B2].
    specialize (IH N2 B2). cbn [map flat_map li_task li_blocks] in IH |- *. rewrite IH. rewrite HL; [reflexivity|exact H|now apply tok_list].
  - rewrite app_nil_r in N. cbn [t_rows] in N. unfold tex_table. cbn [t_rows t_alignments].
    assert (R : forall row, In row rows -> tex_row num' def' (map ris row) = tex_row num def row).
    { intros row I. unfold tex_row. do 2 f_equal. rewrite map_map. apply map_ext_in. intros c C. apply tex_inlines_ren. unfold sok in *. rewrite Forall_forall in *. intros r Ir. apply N. apply in_flat_map in Ir as (x & X & Ir). apply in_flat_map. exists x. split; [|exact Ir].
      apply in_concat. exists c. split; [|exact X]. apply in_concat. eauto. }
    assert (RR : forall (h : list sch -> list sch) rs, incl rs rows -> flat_map (fun r => h (tex_row num' def' r)) (map (map ris) rs) = flat_map (fun r => h (tex_row num def r)) rs).
    { intros h rs I. induction rs as [|r rs IHr]; [reflexivity|]. cbn [map flat_map]. rewrite R by (apply I; now left). f_equal. apply IHr. intros x X. apply I. now right. }
    destruct rows as [|r rows]; [reflexivity|]. cbn [map]. rewrite (R r) by now left.
    rewrite !(RR (fun x => x ++ [] ++ nl) rows), !(RR (fun x => x ++ chs (lit " \\") ++ nl) rows) by (intros x X; now right). reflexivity.
  - inversion B as [|? ? B1 B2]; subst. cbn [app fd_blocks fd_label same_block] in *. rewrite B1. destruct (num l); [|reflexivity]. rewrite HL; [reflexivity|exact IH|now apply tok_list].
  - inversion B; subst. cbn [app ga_blocks ga_type] in *. rewrite HL; [reflexivity|exact IH|now apply tok_list].
Qed.
End Tex.
Lemma outer_ren : forall f g b, outer (rename_block f g b) = map (rename_block f g) (outer b).
Proof.
  intros f g. assert (HL : forall l, Forall (fun b => outer (rename_block f g b) = map (rename_block f g) (outer b)) l ->
    flat_map outer (map (rename_block f g) l) = map (rename_block f g) (flat_map outer l)).
  { induction 1 as [|b l E F IH]; [reflexivity|]. cbn [map flat_map]. rewrite map_app. congruence. }
  induction b as [c|[hk hc]| |bs IH|k items IH|c|s|[]|[]|l bs IH|t bs IH|] using block_ind'; try reflexivity; cbn [rename_block outer map fd_blocks ga_blocks l_items].
  - f_equal. now apply HL.
  - f_equal. induction IH as [|it items F _ IH2]; [reflexivity|]. cbn [map flat_map li_blocks]. rewrite map_app, IH2. f_equal. now apply HL.
  - f_equal. now apply HL.
Qed.
Lemma outers_ren : forall f g d, outer_blocks (rename f g d) = map (rename_block f g) (outer_blocks d).
Proof.
  intros f g [bs]. unfold outer_blocks, rename. cbn [d_blocks]. induction bs as [|b bs IH]; [reflexivity|]. cbn [map flat_map]. rewrite map_app, IH. f_equal. apply outer_ren.
Qed.
Lemma labels_ren : forall f g d, footnote_labels (rename f g d) = map f (footnote_labels d).
Proof.
  intros f g d. unfold footnote_labels. rewrite outers_ren. induction (outer_blocks d) as [|b l IH]; [reflexivity|]. cbn [map flat_map]. rewrite IH, map_app. f_equal.
  destruct b as [c|[]| |bs|[]|c|s|[]|[]|[]|[]|]; reflexivity.
Qed.
Lemma definitions_ren : forall f g d, outer_definitions (rename f g d) = map (def_of g) (outer_definitions d).
Proof.
  intros f g d. unfold outer_definitions. rewrite outers_ren. induction (outer_blocks d) as [|b l IH]; [reflexivity|]. cbn [map flat_map]. rewrite IH, map_app. f_equal.
  destruct b as [c|[]| |bs|[]|c|s|[]|[]|[]|[]|]; reflexivity.
Qed.
Lemma position_ren : forall (P : str -> Prop) f x l, one_to_one P f -> P x -> Forall P l -> last_position (f x) (map f l) = last_position x l.
Proof.
  intros P f x l H Hx F. induction F as [|y l Hy F IH]; [reflexivity|]. cbn [map last_position]. rewrite IH. destruct (last_position x l); [reflexivity|].
  destruct (str_eqb x y) eqn:E.
  - apply str_eqb_eq in E. subst y. now rewrite str_eqb_refl.
  - destruct (str_eqb (f x) (f y)) eqn:E2; [|reflexivity]. apply str_eqb_eq in E2. apply H in E2; [|assumption|assumption]. subst y. now rewrite str_eqb_refl in E.
Qed.
Lemma find_ren : forall (Q : list inline -> Prop) g x l, one_to_one Q g -> Q x -> Forall (fun d => Q (ld_label d)) l ->
  find (fun d => list_eqb inline_eqb (g x) (ld_label d)) (map (def_of g) l) = option_map (def_of g) (find (fun d => list_eqb inline_eqb x (ld_label d)) l).
Proof.
  intros Q g x l H Hx F. induction F as [|y l Hy F IH]; [reflexivity|]. cbn [map find def_of ld_label]. rewrite IH. destruct (list_eqb inline_eqb x (ld_label y)) eqn:E.
  - apply label_eqb_eq in E. rewrite <- E. now rewrite (proj2 (label_eqb_eq _ _)).
  - destruct (list_eqb inline_eqb (g x) (g (ld_label y))) eqn:E2; [|reflexivity]. apply label_eqb_eq in E2. apply H in E2; [|assumption|assumption]. rewrite E2 in E. now rewrite (proj2 (label_eqb_eq _ _)) in E.
Qed.
Lemma position_some : forall x l, In x l -> last_position x l <> None.
Proof.
  intros x l. induction l as [|y l IH]; [intros []|]; intros [->|I]; cbn [last_position].
  - destruct (last_position x l); [discriminate|]. rewrite str_eqb_refl. discriminate.
  - apply IH in I. destruct (last_position x l); [discriminate|congruence].
Qed.
Lemma outside_outer : forall b, outside b = outer b.
Proof.
  assert (HL : forall l, Forall (fun b => outside b = outer b) l -> flat_map outside l = flat_map outer l) by (induction 1; cbn; congruence).
  induction b as [c|[hk hc]| |bs IH|k items IH|c|s|[]|[]|l bs IH|t bs IH|] using block_ind'; try reflexivity; cbn [outside outer ga_blocks l_items]; f_equal; try now apply HL.
Qed.
Lemma outsides : forall d, flat_map outside (d_blocks d) = outer_blocks d.
Proof. intros d. unfold outer_blocks. apply flat_map_ext. exact outside_outer. Qed.
Lemma outer_doc : forall d b, In b (outer_blocks d) -> In b (doc_blocks d).
Proof. intros d b I. unfold outer_blocks, doc_blocks in *. apply in_flat_map in I as (x & X & I). apply in_flat_map. exists x. split; [exact X|now apply outer_in]. Qed.
Lemma tex_rename : forall cfg f g d, one_to_one (note_label d) f -> one_to_one (link_label d) g -> defined d -> tex_view cfg (rename f g d) = tex_view cfg d.
Proof.
  intros cfg f g d Hf Hg [D1 D2]. rewrite outsides in *.
  assert (N : forall x, note_label d x -> tex_number (rename f g d) (f x) = tex_number d x).
  { intros x X. unfold tex_number. rewrite labels_ren. apply (position_ren (note_label d)); [exact Hf|exact X|]. apply Forall_forall. intros y Y. unfold footnote_labels in Y.
    apply in_flat_map in Y as (b & B & Y). destruct b as [| | | | | | | | |n| |]; try contradiction. destruct Y as [<-|[]]. right. exists n. split; [now apply outer_doc|reflexivity]. }
  assert (L : forall x, link_label d x -> tex_resolve (rename f g d) (g x) = option_map (def_of g) (tex_resolve d x)).
  { intros x X. unfold tex_resolve. rewrite definitions_ren, <- map_rev. apply (find_ren (link_label d)); [exact Hg|exact X|]. apply Forall_rev. apply Forall_forall. intros y Y. unfold outer_definitions in Y.
    apply in_flat_map in Y as (b & B & Y). destruct b as [| | | | | | |n| | | |]; try contradiction. destruct Y as [<-|[]]. right. exists n. split; [now apply outer_doc|reflexivity]. }
  unfold tex_view. f_equal. unfold rename at 3. cbn [d_blocks]. rewrite map_map. apply map_ext_in. intros b I. apply tex_block_ren.
  assert (F : Forall (tok f g (tex_number d) (tex_number (rename f g d)) (tex_resolve d) (tex_resolve (rename f g d))) (d_blocks d)).
  { apply tok_list.
    - apply Forall_forall. intros x X. change (In x (doc_blocks d)) in X. destruct x as [| | | | | | | | |n| |]; try exact Logic.I. apply N. right. now exists n.
    - apply Forall_forall. intros i X. change (In i (doc_inlines d)) in X. destruct i as [| | | | |r| | | | | |s|]; try exact Logic.I.
      + split; [apply L; left; now exists r|]. destruct (D2 r X) as (n & In_ & E). unfold tex_resolve. intro K. eapply find_none in K; [|apply -> in_rev; unfold outer_definitions; apply in_flat_map; exists (BDefinition n); split; [exact In_|now left]].
        cbn beta in K. rewrite E in K. now rewrite (proj2 (label_eqb_eq _ _)) in K.
      + split; [apply N; now left|]. apply position_some. destruct (D1 s X) as (n & In_ & E). unfold footnote_labels. apply in_flat_map. exists (BFootnoteDefinition n). split; [exact In_|now left]. }
  rewrite Forall_forall in F. now apply F.
Qed.
Theorem latex_rename : forall uw1 uw2 f g d cfg, one_to_one (note_label d) f -> one_to_one (link_label d) g -> defined d ->
  option_map squash (render_latex uw1 (rename f g d) cfg) = option_map squash (render_latex uw2 d cfg).
Proof.
  intros uw1 uw2 f g d cfg Hf Hg D. destruct (LatexFacts.render_latex_view uw1 (rename f g d) cfg) as (o1 & E1 & L1). destruct (LatexFacts.render_latex_view uw2 d cfg) as (o2 & E2 & L2).
  rewrite E1, E2. cbn [option_map]. f_equal. eapply layout_squash; [exact L1|]. rewrite tex_rename by assumption. exact L2.
Qed.
