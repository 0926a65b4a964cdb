(** Proof of C105. *)
From Coq Require Import String Lia.
From Verif Require Import HtmlFacts HtmlProps SpecHtml SpecFormat RoundUnwrap FormatFacts SpecMeaning HtmlPrinter.
Import ListNotations.
Open Scope list_scope.

Definition fl (l : list node) : list tok := map settle_tok (flatten_all l).
Lemma fl_app : forall a b, fl (a ++ b) = fl a ++ fl b.
Proof. intros a b. unfold fl, flatten_all. now rewrite flat_map_app, map_app. Qed.
Lemma fl_cons : forall n l, fl (n :: l) = fl [n] ++ fl l.
Proof. intros n l. exact (fl_app [n] l). Qed.
Lemma fl_elem : forall n a k, fl [Elem n a k] = TOpen n a :: fl k ++ [TClose n].
Proof. intros n a k. unfold fl, flatten_all. cbn [flat_map flatten]. rewrite app_nil_r. cbn [map]. now rewrite map_app. Qed.
Lemma fl_elem_same : forall n a k k', fl k = fl k' -> fl [Elem n a k] = fl [Elem n a k'].
Proof. intros n a k k' H. rewrite !fl_elem. now rewrite H. Qed.
Lemma fl_text : forall t, fl [Chars (unwrap_text t)] = fl [Chars t].
Proof.
  intros t. unfold fl, flatten_all. cbn [flat_map flatten]. rewrite !app_nil_r. unfold unwrap_text. rewrite !map_map. apply map_ext. intros c. cbn [settle_tok].
  destruct (N.eqb_spec c c_nl) as [->|N]; [reflexivity|]. destruct (N.eqb_spec c c_nl); [contradiction|reflexivity].
Qed.
Lemma fl_map : forall {A} (f : A -> list node) (g : A -> A) l, Forall (fun x => fl (f (g x)) = fl (f x)) l -> fl (flat_map f (map g l)) = fl (flat_map f l).
Proof. intros A f g l F. induction F as [|x l E F IH]; [reflexivity|]. cbn [map flat_map]. rewrite !fl_app. congruence. Qed.

Section View.
Variable attr : str -> str.
Variable prefix : str.
Variable num : str -> option N.
Variable def : list inline -> option link_definition.
Notation vi := (view_inline attr prefix num def).
Notation vb := (view_block attr prefix num def).
Lemma fl_inline : forall i, firm_refs (inline_preorder i) -> fl (vi (unwrap_inline i)) = fl (vi i).
Proof.
  assert (HL : forall l, Forall (fun i => firm_refs (inline_preorder i) -> fl (vi (unwrap_inline i)) = fl (vi i)) l ->
    firm_refs (flat_map inline_preorder l) -> fl (flat_map vi (map unwrap_inline l)) = fl (flat_map vi l)).
  { intros l F N. apply fl_map. apply firm_refs_list in N. induction F as [|i l E F IH]; [constructor|]. inversion N; subst. constructor; auto. }
  induction i as [s| |s|s|d t c Hc|l t Hl Ht|im|c Hc|c Hc|c Hc|s|s|] using inline_ind'; intros N; cbn [unwrap_inline view_inline]; try reflexivity;
    cbn [inline_preorder link_children lr_label lr_text link_destination link_title] in *.
  - apply fl_text.
  - apply fl_elem_same. apply HL; [exact Hc|]. now apply (proj1 (firm_refs_app [_] _)) in N.
  - assert (E : map unwrap_inline l = l). { apply firm_fix. apply (N (LinkReference l t)). now left. }
    rewrite E. destruct (def l); [|reflexivity]. apply fl_elem_same. apply HL; [exact Ht|]. apply (proj1 (firm_refs_app [_] _)) in N as [_ N]. now apply firm_refs_app in N.
  - apply fl_elem_same. apply HL; [exact Hc|]. now apply (proj1 (firm_refs_app [_] _)) in N.
  - apply fl_elem_same. apply HL; [exact Hc|]. now apply (proj1 (firm_refs_app [_] _)) in N.
  - apply fl_elem_same. apply HL; [exact Hc|]. now apply (proj1 (firm_refs_app [_] _)) in N.
Qed.
Lemma fl_inlines : forall l, firm_refs (flat_map inline_preorder l) -> fl (view_inlines attr prefix num def (unwrap_inlines l)) = fl (view_inlines attr prefix num def l).
Proof.
  intros l N. apply fl_map. apply firm_refs_list in N. induction N as [|i l E F IH]; [constructor|]. constructor; [now apply fl_inline|exact IH].
Qed.
Lemma fl_cells : forall cell row al, Forall (fun c => firm_refs (flat_map inline_preorder c)) row ->
  fl (view_cells attr prefix num def cell al (map unwrap_inlines row)) = fl (view_cells attr prefix num def cell al row).
Proof.
  intros cell row. induction row as [|c row IH]; intros al F; [reflexivity|]. inversion F; subst. cbn [map view_cells]. rewrite fl_cons. symmetry. rewrite fl_cons. f_equal; [|symmetry; now apply IH].
  apply fl_elem_same. symmetry. now apply fl_inlines.
Qed.
Lemma fl_rows : forall cell al rows, (forall row, In row rows -> Forall (fun c => firm_refs (flat_map inline_preorder c)) row) ->
  fl (map (view_row attr prefix num def cell al) (map (map unwrap_inlines) rows)) = fl (map (view_row attr prefix num def cell al) rows).
Proof.
  intros cell al rows. induction rows as [|r rows IH]; intros R; [reflexivity|]. cbn [map]. rewrite fl_cons. symmetry. rewrite fl_cons. f_equal.
  - apply fl_elem_same. symmetry. apply fl_cells. apply R. now left.
  - symmetry. apply IH. intros row I. apply R. now right.
Qed.
Lemma fl_block : forall b, firm_refs (inls b) -> fl (vb (unwrap_block b)) = fl (vb b).
Proof.
  assert (SP : forall l, firm_refs (flat_map (fun x => flat_map inline_preorder (block_inlines x)) (flat_map block_preorder l)) -> Forall (fun b => firm_refs (inls b)) l).
  { intros l N. apply Forall_forall. intros b B r I. apply N. unfold inls in I. apply in_flat_map in I as (x & X & I). apply in_flat_map. exists x. split; [|exact I]. apply in_flat_map. eauto. }
  assert (HL : forall l, Forall (fun b => firm_refs (inls b) -> fl (vb (unwrap_block b)) = fl (vb b)) l ->
    Forall (fun b => firm_refs (inls b)) l -> fl (flat_map vb (map unwrap_block l)) = fl (flat_map vb l)).
  { intros l F N. apply fl_map. induction F as [|b l E F IH]; [constructor|]. inversion N; subst. constructor; auto. }
  induction b as [c|[hk hc]| |bs IH|k items IH|c|s|[dl dd dt]|[rows al]|l bs IH|t bs IH|] using block_ind'; intros N; unfold inls in N; cbn [block_preorder flat_map block_inlines] in N; try reflexivity;
    cbn [unwrap_block view_block].
  - rewrite app_nil_r in N. apply fl_elem_same. now apply fl_inlines.
  - rewrite app_nil_r in N. apply fl_elem_same. now apply fl_inlines.
  - cbn [app] in N. apply fl_elem_same. apply HL; [exact IH|now apply SP].
  - cbn [app l_items l_kind] in *.
    assert (X : fl (map (fun it => elem "li" [] (view_task (li_task it) ++ flat_map vb (li_blocks it)))
        (map (fun it : list_item => {| li_task := li_task it; li_blocks := map unwrap_block (li_blocks it) |}) items)) =
      fl (map (fun it => elem "li" [] (view_task (li_task it) ++ flat_map vb (li_blocks it))) items)).
    { induction IH as [|it items H F IH]; [reflexivity|]. cbn [flat_map] in N. rewrite flat_map_app in N. apply firm_refs_app in N as [N1 N2]. cbn [map li_task li_blocks]. rewrite fl_cons. symmetry. rewrite fl_cons. f_equal; [|symmetry; now apply IH].
      apply fl_elem_same. rewrite !fl_app. f_equal. symmetry. apply HL; [exact H|now apply SP]. }
    destruct k as [n|[]]; cbn [view_list_elem]; apply fl_elem_same; exact X.
  - rewrite app_nil_r in N. cbn [t_rows t_alignments] in *.
    assert (R : forall row, In row rows -> Forall (fun c => firm_refs (flat_map inline_preorder c)) row).
    { intros row I. apply Forall_forall. intros c C r Ir. apply N. apply in_flat_map in Ir as (x & X & Ir). apply in_flat_map. exists x. split; [|exact Ir].
      apply in_concat. exists c. split; [|exact X]. apply in_concat. eauto. }
    apply fl_elem_same. rewrite firstn_map, skipn_map. rewrite fl_cons. symmetry. rewrite fl_cons. symmetry. f_equal.
    + apply fl_elem_same. apply fl_rows. intros row I. apply R. rewrite <- (firstn_skipn 1 rows). apply in_or_app. now left.
    + apply fl_elem_same. apply fl_rows. intros row I. apply R. rewrite <- (firstn_skipn 1 rows). apply in_or_app. now right.
  - cbn [app fd_blocks fd_label] in *. destruct (num l); [|reflexivity]. apply fl_elem_same. rewrite fl_cons. symmetry. rewrite fl_cons. symmetry. f_equal. apply fl_elem_same. apply HL; [exact IH|now apply SP].
  - cbn [app ga_blocks ga_type] in *. apply fl_elem_same. rewrite fl_cons. symmetry. rewrite fl_cons. symmetry. f_equal. apply HL; [exact IH|now apply SP].
Qed.
End View.

Lemma refs_unwrap : forall d, direct_refs (unwrap d) = direct_refs d.
Proof.
  intros d. unfold direct_refs. rewrite doc_blocks_unwrap. induction (doc_blocks d) as [|b l IH]; [reflexivity|]. cbn [map flat_map]. rewrite IH. f_equal. rewrite block_inlines_unwrap.
  generalize (block_inlines b). intros m. unfold inline_refs, unwrap_inlines. induction m as [|i m IHm]; [reflexivity|]. cbn [map flat_map]. rewrite IHm. destruct i as [u| | | |[]|[]| | | | | | |]; reflexivity.
Qed.
Lemma defs_unwrap : forall d, firm d -> definitions (unwrap d) = definitions d.
Proof.
  intros d [_ F]. unfold definitions. rewrite doc_blocks_unwrap. induction (doc_blocks d) as [|b l IH]; [reflexivity|]. cbn [map flat_map]. rewrite IH by (intros x I; apply F; now right). f_equal.
  destruct b as [c|[]| |bs|[]|c|s|[dl dd dt]|[]|[]|[]|]; try reflexivity. cbn [unwrap_block].
  do 2 f_equal. apply firm_fix. apply (F (LinkDefinition dl dd dt)). now left.
Qed.
Lemma view_unwrap : forall attr prefix d, firm d -> fl (view attr prefix (unwrap d)) = fl (view attr prefix d).
Proof.
  intros attr prefix d F. unfold view.
  assert (E1 : footnote_number (unwrap d) = footnote_number d) by (unfold footnote_number; now rewrite refs_unwrap).
  assert (E2 : resolve (unwrap d) = resolve d) by (unfold resolve; now rewrite defs_unwrap).
  rewrite E1, E2. destruct F as [F _]. generalize (footnote_number d) (resolve d). intros nm df. destruct d as [bs]. unfold unwrap. cbn [d_blocks]. apply fl_map.
  unfold doc_inlines, doc_blocks in F. cbn [d_blocks] in F. apply Forall_forall. intros b I. apply fl_block. intros r Ir. apply F. unfold inls in Ir. apply in_flat_map in Ir as (x & X & Ir). apply in_flat_map. exists x. split; [apply in_flat_map; eauto|exact Ir].
Qed.
Lemma view_same : forall attr prefix d e, unwrap d = unwrap e -> firm d -> same_tokens (flatten_all (view attr prefix d)) (flatten_all (view attr prefix e)).
Proof.
  intros attr prefix d e E F. change (fl (view attr prefix d) = fl (view attr prefix e)). rewrite <- (view_unwrap attr prefix d F), <- (view_unwrap attr prefix e (firm_same d e E F)). now rewrite E.
Qed.
Lemma raw_unwrap : forall d, raw_strings (unwrap d) = raw_strings d.
Proof.
  intros d. unfold raw_strings. rewrite doc_inlines_unwrap, doc_blocks_unwrap. f_equal.
  - induction (doc_inlines d) as [|i l IH]; [reflexivity|]. cbn [map flat_map]. rewrite IH. destruct i as [u| | | |[]|[]| | | | | | |]; reflexivity.
  - induction (doc_blocks d) as [|i l IH]; [reflexivity|]. cbn [map flat_map]. rewrite IH. destruct i as [c|[]| |bs|[]|c|s|[dl dd dt]|[]|[]|[]|]; reflexivity.
Qed.
