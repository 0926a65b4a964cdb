(** The printed HTML means the view of the document (SpecHtml.v). *)
From Coq Require Import String.
From Verif Require Export HtmlFacts SpecHtml.
Import ListNotations.
Open Scope list_scope.

Lemma escape_plain s : forallb (fun c => negb (special c)) s = true -> escape s = s.
Proof.
  induction s as [|c s IH]; cbn [forallb]; intro H; [reflexivity|]. apply andb_true_iff in H as [H1 H2].
  change (escape (c :: s)) with (escape_char c ++ escape s). rewrite (IH H2), escape_char_plain; [reflexivity|].
  apply negb_true_iff, H1.
Qed.
Lemma digit_plain c : is_digit c = true -> special c = false.
Proof.
  unfold is_digit, special. intro H. apply andb_true_iff in H as [H1 H2]. apply N.leb_le in H1, H2.
  repeat match goal with |- context [N.eqb c ?x] => destruct (N.eqb_spec c x); [lia|] end. reflexivity.
Qed.
Lemma dec_digits_digits f n acc : forallb is_digit acc = true -> forallb is_digit (dec_digits f n acc) = true.
Proof.
  revert n acc; induction f as [|f IH]; intros n acc H; cbn [dec_digits]; [exact H|].
  assert (D : is_digit (48 + N.modulo n 10)%N = true).
  { unfold is_digit. assert (N.modulo n 10 < 10)%N by (apply N.mod_lt; lia).
    generalize dependent (N.modulo n 10). clear. intros m Hm.
    change (((48 <=? 48 + m) && (48 + m <=? 57))%N = true).
    apply andb_true_iff; split; apply N.leb_le; lia. }
  destruct (n <? 10)%N; [|apply IH]; cbn [forallb]; rewrite D; exact H.
Qed.
Lemma dec_is_digits n : forallb is_digit (dec n) = true.
Proof. apply dec_digits_digits. reflexivity. Qed.
Lemma escape_dec n : escape (dec n) = dec n.
Proof.
  apply escape_plain. apply forallb_forall. intros c Hc. apply negb_true_iff, digit_plain.
  apply (proj1 (forallb_forall _ _) (dec_is_digits n)), Hc.
Qed.

Section Means.
Variable st : html_state.
Notation num := (get_footnote_index st).
Notation def := (get_link_definition st).
Notation prefix := (hc_anchor_prefix (hs_config st)).
Notation vi := (view_inline escape prefix num def).
Notation vb := (view_block escape prefix num def).

Lemma vtitle_keys t : Forall (fun kv => key_ok (fst kv) = true) (title_attr t).
Proof. destruct t; repeat constructor. Qed.
Lemma Forall_flat_map' {A B} (P : B -> Prop) (f : A -> list B) l :
  Forall P (flat_map f l) <-> Forall (fun x => Forall P (f x)) l.
Proof. apply Forall_flat_map. Qed.

Definition iraw (i : inline) := flat_map inline_raw (inline_preorder i).
Lemma iraw_flat l : flat_map inline_raw (flat_map inline_preorder l) = flat_map iraw l.
Proof. induction l as [|x l IH]; cbn; [reflexivity|]. rewrite flat_map_app, IH. reflexivity. Qed.

Lemma means_title_chars (s : str) : forallb (fun c => negb (special c)) s = true -> means (DText s) [Chars s].
Proof. intros H. rewrite <- (escape_plain s H) at 1. apply means_chars. Qed.

Lemma means_inline i : Forall raw_ok (iraw i) -> means (inline_to_doc st i) (vi i).
Proof.
  assert (HL : forall l, Forall (fun i => Forall raw_ok (iraw i) -> means (inline_to_doc st i) (vi i)) l ->
     Forall raw_ok (flat_map iraw l) -> means (concat_docs (map (inline_to_doc st) l)) (flat_map vi l)).
  { intros l H R. apply means_concat. apply Forall_flat_map' in R. rewrite Forall_forall in *. auto. }
  induction i as [s| |s|s|d t c Hc|l t Hl Ht|im|c Hc|c Hc|c Hc|s|s|] using inline_ind'; intro R;
    cbn [inline_to_doc view_inline link_destination link_title link_children lr_label lr_text];
    unfold iraw in R; cbn [inline_preorder flat_map inline_raw app] in R;
    cbn [link_children lr_label lr_text] in R; rewrite ?flat_map_app, ?iraw_flat in R.
  - apply means_chars.
  - apply means_tag; [reflexivity|constructor|apply means_nil].
  - apply means_tag; [reflexivity|constructor|apply means_chars].
  - apply means_raw. apply Forall_inv in R. exact R.
  - apply means_tag; [reflexivity| |auto]. constructor; [reflexivity|apply vtitle_keys].
  - destruct (def l) as [x|]; [|apply means_nil].
    apply means_tag; [reflexivity| |]. constructor; [reflexivity|apply vtitle_keys].
    apply HL; [exact Ht|]. apply Forall_app in R. tauto.
  - apply means_tag; [reflexivity| |apply means_nil].
    constructor; [reflexivity|]. constructor; [reflexivity|apply vtitle_keys].
  - apply means_tag; [reflexivity|constructor|auto].
  - apply means_tag; [reflexivity|constructor|auto].
  - apply means_tag; [reflexivity|constructor|auto].
  - apply means_tag; [reflexivity| |apply means_chars]. repeat constructor.
  - destruct (num s) as [n|]; [|apply means_nil].
    apply means_tag; [reflexivity| |]. repeat constructor.
    assert (E : lit "[" ++ dec n ++ lit "]" = escape (lit "[" ++ dec n ++ lit "]"))
      by (rewrite !escape_app, escape_dec; reflexivity).
    rewrite E at 1. apply means_chars.
  - apply means_nil.
Qed.
Lemma means_inlines l : Forall raw_ok (flat_map iraw l) -> means (inlines_to_doc st l) (view_inlines escape prefix num def l).
Proof.
  intro R. apply means_concat. apply Forall_flat_map' in R. eapply Forall_impl; [|exact R]. apply means_inline.
Qed.

Lemma acls_eq a : align_class a = lit (acls a).
Proof. destruct a as [[]|]; reflexivity. Qed.
Lemma nth_error_hd {A} (l : list A) i : nth_error l i = hd_error (skipn i l).
Proof. revert l; induction i as [|i IH]; intros [|x l]; cbn; auto. Qed.
Lemma skipn_tl {A} (l : list A) i : skipn (S i) l = tl (skipn i l).
Proof. revert l; induction i as [|i IH]; intros [|x l]; auto. cbn [skipn]. apply IH. Qed.
Lemma means_cells cell al row : name_ok (lit cell) = true -> Forall (fun c => Forall raw_ok (flat_map iraw c)) row ->
  forall i acc na, means acc na ->
  means (cells_to_doc st (lit cell) al i row acc) (na ++ view_cells escape prefix num def cell (skipn i al) row).
Proof.
  intros Hn H. induction H as [|c row Hc Hrow IH]; intros i acc na Ha; cbn [cells_to_doc view_cells];
    [rewrite app_nil_r; exact Ha|].
  set (e := elem cell _ _). change (e :: ?r) with ([e] ++ r). rewrite app_assoc. subst e.
  rewrite <- skipn_tl. apply IH, means_append; [exact Ha|].
  rewrite acls_eq, nth_error_hd. apply means_tag; [exact Hn|repeat constructor|apply means_inlines, Hc].
Qed.
Lemma means_row cell al row : name_ok (lit cell) = true -> Forall (fun c => Forall raw_ok (flat_map iraw c)) row ->
  means (table_row_to_doc st row (lit cell) al) [view_row escape prefix num def cell al row].
Proof.
  intros Hn H. apply means_tag; [reflexivity|constructor|]. apply (means_cells cell al row Hn H 0 DNil []), means_nil.
Qed.

Definition bok (b : block) : Prop :=
  Forall raw_ok (block_raw b) /\ Forall raw_ok (flat_map iraw (block_inlines b)) /\
  match b with BTable t => t_rows t <> [] | _ => True end.

Lemma raw_ok_icon t : raw_ok (svg_icon t).
Proof.
  destruct t; (eexists; split; [vm_compute; reflexivity|];
    match goal with |- balanced [?o; ?p; ?q; ?r] => apply (bal_elem _ _ [p; q] []); [apply (bal_elem _ _ [] []); constructor|constructor] end).
Qed.
Lemma html_title_means t : Forall raw_ok (match t with Custom s => [s] | _ => [] end) ->
  means (DText (html_title t)) [alert_title t].
Proof.
  intro H. destruct t; cbn [html_title alert_title]; try (apply means_title_chars; reflexivity).
  apply means_raw. apply Forall_inv in H. exact H.
Qed.
Lemma css_eq t : css_classes t = lit (alert_class t).
Proof. destruct t; reflexivity. Qed.
Lemma hname_eq k : heading_tag k = lit (hname k).
Proof.
  destruct k as [n|[]]; try reflexivity. unfold heading_tag, hname.
  repeat match goal with |- context [N.eqb n ?x] => destruct (N.eqb n x); [reflexivity|] end. reflexivity.
Qed.
Lemma hname_ok k : name_ok (lit (hname k)) = true.
Proof.
  destruct k as [n|[]]; try reflexivity. unfold hname.
  repeat match goal with |- context [N.eqb n ?x] => destruct (N.eqb n x); [reflexivity|] end. reflexivity.
Qed.
Lemma means_task t : means (task_to_doc t) (view_task t).
Proof.
  destruct t as [[]|]; cbn [task_to_doc view_task]; try apply means_nil;
    (apply means_tag; [reflexivity|repeat constructor|apply means_title_chars; reflexivity]).
Qed.

Lemma means_block b : Forall bok (block_preorder b) -> means (block_to_doc st b) (vb b).
Proof.
  assert (HL : forall l, Forall (fun b => Forall bok (block_preorder b) -> means (block_to_doc st b) (vb b)) l ->
     Forall bok (flat_map block_preorder l) -> means (concat_docs (map (block_to_doc st) l)) (flat_map vb l)).
  { intros l H R. apply means_concat. apply Forall_flat_map' in R. rewrite Forall_forall in *. auto. }
  induction b as [c|h| |bs H|k items H|c|s|d|t|l bs H|t bs H|] using block_ind'; intro R;
    cbn [block_preorder fd_blocks ga_blocks l_items] in R; apply Forall_cons_iff in R as [(R1 & R2 & R3) R];
    cbn [block_raw block_inlines] in R1, R2;
    cbn [block_to_doc view_block fd_blocks fd_label ga_blocks ga_type l_items l_kind].
  - apply means_tag; [reflexivity|constructor|apply means_inlines, R2].
  - rewrite hname_eq. apply means_tag; [apply hname_ok|constructor|apply means_inlines, R2].
  - apply means_tag; [reflexivity|constructor|apply means_nil].
  - apply means_tag; [reflexivity|constructor|auto].
  - assert (G : means (concat_docs (map (fun it : list_item => tag (lit "li") []
        (append (task_to_doc (li_task it)) (concat_docs (map (block_to_doc st) (li_blocks it))))) items))
        (map (fun it => elem "li" [] (view_task (li_task it) ++ flat_map vb (li_blocks it))) items)).
    { replace (map (fun it => elem "li" [] (view_task (li_task it) ++ flat_map vb (li_blocks it))) items)
        with (flat_map (fun it => [elem "li" [] (view_task (li_task it) ++ flat_map vb (li_blocks it))]) items)
        by (clear; induction items; cbn; congruence).
      apply means_concat. apply Forall_flat_map' in R. rewrite Forall_forall in *. intros it Hit.
      apply means_tag; [reflexivity|constructor|]. apply means_append; [apply means_task|].
      apply HL; [apply H, Hit|apply R, Hit]. }
    destruct k as [n|[]]; cbn [list_tag view_list_elem]; apply means_tag; try reflexivity; try (repeat constructor; fail); exact G.
  - apply means_tag; [reflexivity|constructor|]. apply means_tag; [reflexivity|constructor|apply means_chars].
  - apply means_raw. apply Forall_inv in R1. exact R1.
  - apply means_nil.
  - unfold table_to_doc. destruct (t_rows t) as [|r rows]; [congruence|]. cbn [firstn skipn map].
    apply Forall_flat_map' in R2. cbn [concat] in R2. rewrite concat_app in R2. apply Forall_app in R2 as [Rr Rrows].
    assert (X : forall r, Forall (fun x => Forall raw_ok (iraw x)) (concat r) -> Forall (fun c => Forall raw_ok (flat_map iraw c)) r).
    { intros r0 H. apply Forall_concat in H. eapply Forall_impl; [|exact H]. intros c Hc. apply Forall_flat_map', Hc. }
    assert (Xs : Forall (fun r => Forall (fun c => Forall raw_ok (flat_map iraw c)) r) rows).
    { clear -Rrows X. induction rows as [|r rows IH]; constructor; cbn [concat] in Rrows; rewrite concat_app in Rrows;
        apply Forall_app in Rrows as [A B]; auto. }
    apply means_tag; [reflexivity|constructor|].
    apply (means_append _ _ [_] [_]).
    + apply means_tag; [reflexivity|constructor|]. apply means_row; [reflexivity|auto].
    + apply means_tag; [reflexivity|constructor|].
      assert (G : forall acc na, means acc na -> means
        (fold_left (fun acc row => append acc (table_row_to_doc st row (lit "td") (t_alignments t))) rows acc)
        (na ++ map (view_row escape prefix num def "td" (t_alignments t)) rows)).
      { clear -Xs. induction Xs as [|r rows Hr Hrows IH]; intros acc na Ha; cbn [fold_left map]; [rewrite app_nil_r; exact Ha|].
        set (e := view_row _ _ _ _ _ _ _). change (e :: ?r) with ([e] ++ r). rewrite app_assoc. subst e.
        apply IH, means_append; [exact Ha|]. apply means_row; [reflexivity|exact Hr]. }
      apply (G DNil []), means_nil.
  - destruct (num l) as [n|]; [|apply means_nil].
    apply means_tag; [reflexivity|repeat constructor|]. apply (means_append _ _ [_] [_]).
    + apply means_tag; [reflexivity|repeat constructor|].
      assert (E : dec n ++ lit ". " = escape (dec n ++ lit ". "))
        by (rewrite !escape_app, escape_dec; reflexivity).
      rewrite E at 1. apply means_chars.
    + apply means_tag; [reflexivity|repeat constructor|auto].
  - rewrite css_eq. apply means_tag; [reflexivity|repeat constructor|].
    set (e := elem "p" _ _). change (e :: ?r) with ([e] ++ r). subst e. apply means_append; [|auto].
    apply means_tag; [reflexivity|repeat constructor|]. apply (means_append _ _ [_] [_]).
    + apply means_raw, raw_ok_icon.
    + apply html_title_means, R1.
  - apply means_nil.
Qed.
End Means.

Lemma doc_bok d : Forall raw_ok (raw_strings d) -> tables_ok d -> Forall bok (doc_blocks d).
Proof.
  intros H T. unfold raw_strings in H. apply Forall_app in H as [H1 H2].
  apply Forall_forall. intros b Hb. split; [|split].
  - apply Forall_flat_map in H2. rewrite Forall_forall in H2. apply H2, Hb.
  - unfold doc_inlines in H1. rewrite Forall_forall in *. intros s Hs. apply H1.
    apply in_flat_map in Hs as (i & Hi & Hs). unfold iraw in Hs. apply in_flat_map in Hs as (j & Hj & Hs).
    apply in_flat_map. exists j. split; [|exact Hs]. apply in_flat_map. exists b. split; [exact Hb|].
    apply in_flat_map. exists i. auto.
  - destruct b; auto.
Qed.


(** *** The view depends only on what it is given *)
Section Ext.
Variables (a1 a2 : str -> str) (p : str) (n1 n2 : str -> option N) (d1 d2 : list inline -> option link_definition).
Hypothesis Hn : forall x, n1 x = n2 x.
Hypothesis Hd : forall l, d1 l = d2 l.
Hypothesis Hp : forall n, a1 (lit "#" ++ p ++ dec n) = a2 (lit "#" ++ p ++ dec n).
Definition agree (s : str) : Prop := a1 s = a2 s.
Hypothesis Hda : forall l x, d2 l = Some x -> Forall agree (ld_destination x :: opt_list (ld_title x)).
Definition iattrs (i : inline) := flat_map inline_attrs (inline_preorder i).
Lemma iattrs_flat l : flat_map inline_attrs (flat_map inline_preorder l) = flat_map iattrs l.
Proof. induction l as [|x l IH]; cbn; [reflexivity|]. rewrite flat_map_app, IH. reflexivity. Qed.
Lemma vtitle_ext t : Forall agree (opt_list t) -> vtitle a1 t = vtitle a2 t.
Proof. destruct t; cbn; [|reflexivity]. intro H. inversion H as [|? ? E]; subst. rewrite E. reflexivity. Qed.
Lemma view_inline_ext i : Forall agree (iattrs i) ->
  view_inline a1 p n1 d1 i = view_inline a2 p n2 d2 i.
Proof.
  assert (HL : forall l, Forall (fun i => Forall agree (iattrs i) -> view_inline a1 p n1 d1 i = view_inline a2 p n2 d2 i) l ->
     Forall agree (flat_map iattrs l) -> flat_map (view_inline a1 p n1 d1) l = flat_map (view_inline a2 p n2 d2) l).
  { intros l H R. apply Forall_flat_map' in R. induction H as [|x l Hx Hl IH]; cbn; [reflexivity|].
    inversion R; subst. f_equal; auto. }
  induction i as [s| |s|s|d t c Hc|l t Hl Ht|im|c Hc|c Hc|c Hc|s|s|] using inline_ind'; intro R;
    unfold iattrs in R; cbn [inline_preorder flat_map inline_attrs app] in R;
    cbn [link_children link_destination link_title lr_label lr_text image_destination image_alt image_title] in R;
    rewrite ?flat_map_app, ?iattrs_flat in R;
    cbn [view_inline link_destination link_title link_children lr_label lr_text]; try reflexivity;
    try (rewrite (HL c Hc R); reflexivity).
  - inversion R as [|? ? E R']; subst. apply Forall_app in R' as [Rt Rc].
    rewrite E, (vtitle_ext _ Rt), (HL _ Hc Rc). reflexivity.
  - rewrite Hd. destruct (d2 l) as [x|] eqn:Ex; [|reflexivity].
    apply Forall_app in R as [_ Rt]. apply Hda in Ex. inversion Ex as [|? ? E Et]; subst.
    rewrite E, (vtitle_ext _ Et), (HL _ Ht Rt). reflexivity.
  - inversion R as [|? ? E1 R']; subst. inversion R' as [|? ? E2 R'']; subst. rewrite app_nil_r in R''.
    rewrite E1, E2, (vtitle_ext _ R''). reflexivity.
  - inversion R as [|? ? E R']; subst. rewrite E. reflexivity.
  - rewrite Hn. destruct (n2 s); [|reflexivity]. rewrite Hp. reflexivity.
Qed.
Lemma view_inlines_ext l : Forall agree (flat_map iattrs l) ->
  view_inlines a1 p n1 d1 l = view_inlines a2 p n2 d2 l.
Proof.
  intro R. apply Forall_flat_map' in R. unfold view_inlines.
  induction R as [|x l Hx Hl IH]; cbn; [reflexivity|]. rewrite (view_inline_ext _ Hx), IH. reflexivity.
Qed.
Definition battrs (b : block) := flat_map iattrs (block_inlines b).
Lemma view_row_ext c al r : Forall agree (flat_map iattrs (concat r)) ->
  view_row a1 p n1 d1 c al r = view_row a2 p n2 d2 c al r.
Proof.
  intro R. unfold view_row. f_equal. revert al. induction r as [|x r IH]; intro al; cbn [view_cells]; [reflexivity|].
  cbn [concat] in R. rewrite flat_map_app in R. apply Forall_app in R as [R1 R2].
  rewrite (view_inlines_ext _ R1), (IH R2). reflexivity.
Qed.
Lemma view_rows_ext c al rows : Forall agree (flat_map iattrs (concat (concat rows))) ->
  map (view_row a1 p n1 d1 c al) rows = map (view_row a2 p n2 d2 c al) rows.
Proof.
  intro R. induction rows as [|r rows IH]; cbn [map]; [reflexivity|].
  cbn [concat] in R. rewrite concat_app, flat_map_app in R. apply Forall_app in R as [R1 R2].
  rewrite (view_row_ext _ _ _ R1), (IH R2). reflexivity.
Qed.
Definition Q (b : block) : Prop := Forall agree (battrs b).
Lemma view_block_ext b : Forall (fun b => Forall agree (battrs b)) (block_preorder b) ->
  view_block a1 p n1 d1 b = view_block a2 p n2 d2 b.
Proof.
  change (Forall Q (block_preorder b) -> view_block a1 p n1 d1 b = view_block a2 p n2 d2 b).
  assert (HL : forall l, Forall (fun b => Forall Q (block_preorder b) -> view_block a1 p n1 d1 b = view_block a2 p n2 d2 b) l ->
     Forall Q (flat_map block_preorder l) -> flat_map (view_block a1 p n1 d1) l = flat_map (view_block a2 p n2 d2) l).
  { intros l H R. apply (fun (f : block -> list block) l => proj1 (Forall_flat_map' Q f l)) in R. induction H as [|x l Hx Hl IH]; cbn; [reflexivity|].
    inversion R; subst. f_equal; auto. }
  induction b as [c|h| |bs H|k items H|c|s|d|t|l bs H|t bs H|] using block_ind'; intro R;
    cbn [block_preorder fd_blocks ga_blocks l_items] in R; apply Forall_cons_iff in R as [R1 R];
    unfold Q, battrs in R1; cbn [block_inlines] in R1;
    cbn [view_block fd_blocks fd_label ga_blocks ga_type l_items l_kind]; try reflexivity;
    rewrite ?(view_inlines_ext _ R1); try reflexivity; try (rewrite (HL _ H R); reflexivity).
  - f_equal. f_equal. apply (fun (f : list_item -> list block) l => proj1 (Forall_flat_map' Q f l)) in R. induction H as [|it items Hit Hi IH]; cbn [map]; [reflexivity|].
    inversion R; subst. rewrite (HL _ Hit) by assumption. f_equal. auto.
  - assert (E : forall c, map (view_row a1 p n1 d1 c (t_alignments t)) (t_rows t) = map (view_row a2 p n2 d2 c (t_alignments t)) (t_rows t))
      by (intro; apply view_rows_ext, R1).
    rewrite <- !firstn_map, <- !skipn_map, !E. reflexivity.
  - rewrite Hn. destruct (n2 l); [|reflexivity]. rewrite (HL _ H R). reflexivity.
Qed.
End Ext.

(** The main result: the output, lexed, is the flattened view. *)
Lemma render_html_view uw d cfg : Forall raw_ok (raw_strings d) -> tables_ok d ->
  exists out, render_html uw d cfg = Some out /\
    tokens out = Some (flatten_all (view escape (hc_anchor_prefix cfg) d)) /\
    balanced (flatten_all (view escape (hc_anchor_prefix cfg) d)).
Proof.
  intros H T. rewrite render_html_dtext.
  assert (E : forall b, view_block escape (hc_anchor_prefix cfg) (get_footnote_index (html_state_new cfg d))
      (get_link_definition (html_state_new cfg d)) b =
     view_block escape (hc_anchor_prefix cfg) (footnote_number d) (resolve d) b) by (intro b; apply view_block_ext; auto using get_footnote_index_eq, get_link_definition_eq; [intros l x _; repeat constructor; destruct (ld_title x); repeat constructor | apply Forall_forall; intros b' _; apply Forall_forall; intros; reflexivity]).
  destruct (means_concat (block_to_doc (html_state_new cfg d)) _ (d_blocks d)
    (proj2 (Forall_forall _ _) (fun b Hb => means_block (html_state_new cfg d) b
       (proj1 (Forall_forall _ _) (proj1 (Forall_flat_map' _ _ _) (doc_bok d H T)) b Hb)))) as (s & Hs & Ts & Bs).
  exists s. unfold view. cbn [hs_config html_state_new] in *.
  rewrite (flat_map_ext _ _ E) in Ts, Bs. auto.
Qed.
