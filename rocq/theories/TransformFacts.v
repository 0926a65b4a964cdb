From Verif Require Export SpecTransform Query Visitor Transformer GenericFacts.

(** ** Query (C05-C07) *)
Section QueryFacts.
  Variable p : inline -> bool.
  Lemma fold_collect {A B} (f : A -> list B -> list B) (g : A -> list B) l :
    Forall (fun x => forall r, f x r = r ++ g x) l ->
    forall r, fold_left (fun acc x => f x acc) l r = r ++ flat_map g l.
  Proof.
    induction 1 as [|x l Hx _ IH]; intros r; cbn; [now rewrite app_nil_r|].
    now rewrite Hx, IH, app_assoc.
  Qed.
  Lemma filter_flat_map {A B} (q : B -> bool) (g : A -> list B) l :
    filter q (flat_map g l) = flat_map (fun x => filter q (g x)) l.
  Proof. induction l as [|x l IH]; cbn; [reflexivity|]. now rewrite filter_app, IH. Qed.

  Lemma collect_inline i : forall r,
    collect_inlines_from_inline p i r = r ++ filter p (inline_preorder i).
  Proof.
    induction i using inline_ind'; intros r; cbn; destruct (p _) eqn:E;
      rewrite ?app_nil_r; try reflexivity;
      repeat (erewrite (fold_collect _ (fun x => filter p (inline_preorder x))); [|eassumption]);
      rewrite ?filter_app, ?filter_flat_map, <- ?app_assoc; reflexivity.
  Qed.
  Lemma collect_inlines_eq l : forall r,
    collect_inlines p l r = r ++ filter p (flat_map inline_preorder l).
  Proof.
    intros r. unfold collect_inlines. rewrite (fold_collect _ (fun x => filter p (inline_preorder x))).
    - now rewrite filter_flat_map.
    - apply Forall_all, collect_inline.
  Qed.
  Definition inlines_under (b : block) : list inline :=
    flat_map (fun b => flat_map inline_preorder (block_inlines b)) (block_preorder b).

  Lemma inlines_under_eq b : inlines_under b =
    flat_map inline_preorder (block_inlines b) ++
    flat_map inlines_under (block_children b).
  Proof.
    unfold inlines_under at 1.
    assert (L : forall bs, flat_map (fun b => flat_map inline_preorder (block_inlines b))
              (flat_map block_preorder bs) = flat_map inlines_under bs).
    { induction bs as [|x bs IH]; cbn; [reflexivity|]. now rewrite flat_map_app, IH. }
    destruct b as [| | |bs|[k its]| | | | |[l bs]|[t bs]|]; cbn; rewrite ?L; try reflexivity.
    induction its as [|it its IH]; cbn; [reflexivity|].
    now rewrite !flat_map_app, L, IH.
  Qed.

  Lemma collect_block b : forall r,
    collect_inlines_from_block p b r = r ++ filter p (inlines_under b).
  Proof.
    induction b using block_ind'; intros r; rewrite inlines_under_eq; cbn;
      rewrite ?app_nil_r, ?collect_inlines_eq; try reflexivity.
    - rewrite filter_flat_map. apply fold_collect. assumption.
    - replace (filter p (flat_map inlines_under (flat_map li_blocks items)))
        with (flat_map (fun it => filter p (flat_map inlines_under (li_blocks it))) items).
      2:{ clear. induction items as [|it its IH]; cbn; [reflexivity|].
          now rewrite flat_map_app, filter_app, IH. }
      apply (fold_collect (fun it acc => fold_left (fun acc0 x => collect_inlines_from_block p x acc0) (li_blocks it) acc)).
      eapply Forall_impl; [|exact H]. intros it Hit r0. rewrite filter_flat_map.
      apply fold_collect. assumption.
    - replace (filter p (flat_map inline_preorder (concat (concat (t_rows t)))))
        with (flat_map (fun row => flat_map (fun cell => filter p (flat_map inline_preorder cell)) row) (t_rows t)).
      2:{ induction (t_rows t) as [|row rows IH]; cbn; [reflexivity|].
          rewrite concat_app, flat_map_app, filter_app, IH. f_equal.
          induction row as [|c row IHr]; cbn; [reflexivity|].
          now rewrite flat_map_app, filter_app, IHr. }
      apply (fold_collect (fun row acc => fold_left (fun acc0 cell => collect_inlines p cell acc0) row acc)).
      apply Forall_all. intros row r0. apply fold_collect, Forall_all. intros c r1.
      apply collect_inlines_eq.
    - rewrite filter_flat_map. apply fold_collect. assumption.
    - rewrite filter_flat_map. apply fold_collect. assumption.
  Qed.
  Lemma doc_inlines_eq d : doc_inlines d = flat_map inlines_under (d_blocks d).
  Proof.
    unfold doc_inlines, doc_blocks. induction (d_blocks d) as [|b bs IH]; cbn; [reflexivity|].
    now rewrite flat_map_app, IH.
  Qed.
  Lemma find_all_inlines_eq d : find_all_inlines_doc p d = filter p (doc_inlines d).
  Proof.
    unfold find_all_inlines_doc. rewrite doc_inlines_eq, filter_flat_map.
    rewrite (fold_collect (fun b acc => acc ++ collect_inlines_from_block p b []) (fun b => filter p (inlines_under b)));
      [reflexivity|].
    apply Forall_all. intros b r. now rewrite collect_block.
  Qed.

  (** find_first *)
  Lemma find_map_hd {A} (f : A -> option inline) (g : A -> list inline) l :
    Forall (fun x => f x = hd_error (filter p (g x))) l ->
    find_map f l = hd_error (filter p (flat_map g l)).
  Proof.
    induction 1 as [|x l Hx _ IH]; cbn; [reflexivity|]. rewrite Hx, filter_app.
    destruct (filter p (g x)) as [|y ys]; cbn; [exact IH|reflexivity].
  Qed.
  Lemma find_first_inline_eq i :
    find_first_inline_in_inline p i = hd_error (filter p (inline_preorder i)).
  Proof.
    induction i using inline_ind'; cbn; destruct (p _) eqn:E; cbn; try reflexivity;
      try (apply find_map_hd; assumption).
    rewrite filter_app, !(find_map_hd _ inline_preorder) by assumption.
    destruct (filter p (flat_map inline_preorder l)); reflexivity.
  Qed.
  Lemma find_first_inlines_eq l :
    find_map (find_first_inline_in_inline p) l = hd_error (filter p (flat_map inline_preorder l)).
  Proof. apply find_map_hd, Forall_all, find_first_inline_eq. Qed.
  Lemma find_first_inline_block_eq b :
    find_first_inline_in_block p b = hd_error (filter p (inlines_under b)).
  Proof.
    induction b using block_ind'; rewrite inlines_under_eq; cbn; rewrite ?app_nil_r, ?find_first_inlines_eq;
      try reflexivity; try (apply find_map_hd; assumption).
    - replace (flat_map inlines_under (flat_map li_blocks items))
        with (flat_map (fun it => flat_map inlines_under (li_blocks it)) items).
      2:{ clear. induction items as [|it its IH]; cbn; [reflexivity|]. now rewrite flat_map_app, IH. }
      apply find_map_hd. eapply Forall_impl; [|exact H]. intros it Hit. now apply find_map_hd.
    - replace (flat_map inline_preorder (concat (concat (t_rows t))))
        with (flat_map (fun row => flat_map (fun cell => flat_map inline_preorder cell) row) (t_rows t)).
      2:{ induction (t_rows t) as [|row rows IH]; cbn; [reflexivity|].
          rewrite concat_app, flat_map_app, IH. f_equal.
          induction row as [|c row IHr]; cbn; [reflexivity|]. now rewrite flat_map_app, IHr. }
      apply find_map_hd, Forall_all. intros row. apply find_map_hd, Forall_all. intros c.
      apply find_first_inlines_eq.
  Qed.
  Lemma find_first_inline_doc_eq d : find_first_inline_doc p d = hd_error (filter p (doc_inlines d)).
  Proof.
    unfold find_first_inline_doc. rewrite doc_inlines_eq. apply find_map_hd, Forall_all.
    apply find_first_inline_block_eq.
  Qed.
End QueryFacts.

Section QueryBlockFacts.
  Variable p : block -> bool.
  Lemma collect_blocks_eq b : forall r,
    collect_blocks_from_block p b r = r ++ filter p (block_preorder b).
  Proof.
    induction b using block_ind'; intros r; cbn; destruct (p _) eqn:E; rewrite ?app_nil_r; try reflexivity;
    try (rewrite (fold_collect _ (fun x => filter p (block_preorder x))) by assumption;
         rewrite ?filter_flat_map, <- ?app_assoc; reflexivity).
    all: rewrite filter_flat_map;
      rewrite (fold_collect (fun it acc => fold_left (fun acc0 x => collect_blocks_from_block p x acc0) (li_blocks it) acc)
                 (fun it => filter p (flat_map block_preorder (li_blocks it))));
      [rewrite <- ?app_assoc; reflexivity|];
      eapply Forall_impl; [|exact H]; intros it Hit r0; rewrite filter_flat_map;
      apply fold_collect; assumption.
  Qed.
  Lemma find_all_blocks_eq d : find_all_blocks_doc p d = filter p (doc_blocks d).
  Proof.
    unfold find_all_blocks_doc, doc_blocks. rewrite filter_flat_map.
    rewrite (fold_collect (fun b acc => acc ++ collect_blocks_from_block p b []) (fun b => filter p (block_preorder b)));
      [reflexivity|].
    apply Forall_all. intros b r. now rewrite collect_blocks_eq.
  Qed.
  Lemma find_map_hd_b {A} (f : A -> option block) (g : A -> list block) l :
    Forall (fun x => f x = hd_error (filter p (g x))) l ->
    find_map f l = hd_error (filter p (flat_map g l)).
  Proof.
    induction 1 as [|x l Hx _ IH]; cbn; [reflexivity|]. rewrite Hx, filter_app.
    destruct (filter p (g x)) as [|y ys]; cbn; [exact IH|reflexivity].
  Qed.
  Lemma find_first_block_eq b :
    find_first_block_in_block p b = hd_error (filter p (block_preorder b)).
  Proof.
    induction b using block_ind'; cbn; destruct (p _) eqn:E; cbn; try reflexivity;
      try (apply find_map_hd_b; assumption).
    apply find_map_hd_b. eapply Forall_impl; [|exact H]. intros it Hit. now apply find_map_hd_b.
  Qed.
  Lemma find_first_block_doc_eq d : find_first_block_doc p d = hd_error (filter p (doc_blocks d)).
  Proof. apply find_map_hd_b, Forall_all, find_first_block_eq. Qed.
End QueryBlockFacts.

Lemma filter_map_filter {A B} (g : A -> option B) (q : A -> bool) l :
  (forall x, q x = match g x with Some _ => true | None => false end) ->
  filter_some g (filter q l) = flat_map (fun x => match g x with Some y => [y] | None => [] end) l.
Proof.
  intros H. induction l as [|x l IH]; cbn; [reflexivity|]. rewrite H.
  destruct (g x) eqn:E; cbn; rewrite ?E; congruence.
Qed.

Arguments each : simpl never.
(** ** Visitor (C08, C09) *)
Section Record.
  Variables (A : Type).
  (** The visitor that records an item for each node, then walks. *)
  Variables (fd : document -> list A) (fb : block -> list A) (fi : inline -> list A)
    (fc : table_cell -> list A) (fit : list_item -> list A) (fr : table_row -> list A)
    (fh : heading -> list A) (fl : link -> list A) (fim : image -> list A)
    (fcb : code_block -> list A) (ft : str -> list A) (ff : footnote_definition -> list A)
    (fa : github_alert -> list A).
  Definition collecting_visitor : visitor (list A) :=
    Visitor (fun x w s => w (s ++ fd x)) (fun x w s => w (s ++ fb x)) (fun x w s => w (s ++ fi x))
      (fun x w s => w (s ++ fc x)) (fun x w s => w (s ++ fit x)) (fun x w s => w (s ++ fr x))
      (fun x w s => w (s ++ fh x)) (fun x w s => w (s ++ fl x)) (fun x w s => w (s ++ fim x))
      (fun x w s => w (s ++ fcb x)) (fun x w s => w (s ++ ft x)) (fun x w s => w (s ++ ff x))
      (fun x w s => w (s ++ fa x)).
  Definition on_event (e : event) : list A :=
    match e with
    | EDocument x => fd x | EBlock x => fb x | EInline x => fi x | ETableCell x => fc x
    | EListItem x => fit x | ETableRow x => fr x | EHeading x => fh x | ELink x => fl x
    | EImage x => fim x | ECodeBlock x => fcb x | EText x => ft x
    | EFootnoteDefinition x => ff x | EGitHubAlert x => fa x
    end.
  Local Notation V := collecting_visitor.
  Lemma each_collect {B} (f : B -> list A -> list A) (g : B -> list event) l :
    Forall (fun x => forall r, f x r = r ++ flat_map on_event (g x)) l ->
    forall r, each f l r = r ++ flat_map on_event (flat_map g l).
  Proof.
    unfold each. induction 1 as [|x l Hx _ IH]; intros r; cbn; [now rewrite app_nil_r|].
    now rewrite Hx, IH, flat_map_app, app_assoc.
  Qed.
  Lemma visit_inline_collect i : forall r,
    visit_inline V i r = r ++ flat_map on_event (events_inline i).
  Proof.
    induction i using inline_ind'; intros r; cbn; rewrite ?app_nil_r; try reflexivity;
      repeat (erewrite (each_collect _ events_inline); [|eassumption]);
      rewrite ?flat_map_app, <- ?app_assoc; reflexivity.
  Qed.
  Lemma visit_inlines_collect l : forall r,
    each (visit_inline V) l r = r ++ flat_map on_event (flat_map events_inline l).
  Proof. apply each_collect, Forall_all, visit_inline_collect. Qed.
  Lemma visit_row_collect row : forall r,
    visit_table_row V row r = r ++ flat_map on_event (events_row row).
  Proof.
    intros r. unfold visit_table_row. cbn. rewrite (each_collect _ events_cell).
    - now rewrite <- app_assoc.
    - apply Forall_all. intros c r0. unfold visit_table_cell. cbn.
      now rewrite visit_inlines_collect, <- app_assoc.
  Qed.
  Lemma visit_block_collect b : forall r,
    visit_block V b r = r ++ flat_map on_event (events_block b).
  Proof.
    induction b using block_ind'; intros r; cbn; unfold visit_heading; cbn;
      rewrite ?app_nil_r, ?visit_inlines_collect; try (rewrite <- ?app_assoc; reflexivity);
      try (rewrite (each_collect _ events_block) by assumption; rewrite <- ?app_assoc; reflexivity).
    - rewrite (each_collect _ (fun it => EListItem it :: flat_map events_block (li_blocks it))).
      + now rewrite <- app_assoc.
      + eapply Forall_impl; [|exact H]. intros it Hit r0. cbn.
        rewrite (each_collect _ events_block) by assumption. now rewrite <- app_assoc.
    - rewrite (each_collect _ events_row); [now rewrite <- app_assoc|].
      apply Forall_all, visit_row_collect.
  Qed.
  Lemma visit_document_collect d r :
    visit_document V d r = r ++ flat_map on_event (events_document d).
  Proof.
    unfold visit_document. cbn. rewrite (each_collect _ events_block).
    - now rewrite <- app_assoc.
    - apply Forall_all, visit_block_collect.
  Qed.
End Record.

Definition ev_inline (e : event) : list inline := match e with EInline i => [i] | _ => [] end.
Definition ev_block (e : event) : list block := match e with EBlock i => [i] | _ => [] end.
Lemma flat_map_flat_map {A B C} (f : B -> list C) (g : A -> list B) l :
  flat_map f (flat_map g l) = flat_map (fun x => flat_map f (g x)) l.
Proof. induction l as [|x l IH]; cbn; [reflexivity|]. now rewrite flat_map_app, IH. Qed.
Lemma flat_map_ext_Forall {A B} (f g : A -> list B) l :
  Forall (fun x => f x = g x) l -> flat_map f l = flat_map g l.
Proof. induction 1 as [|x l Hx _ IH]; cbn; congruence. Qed.
Lemma flat_map_nil {A B} (f : A -> list B) l : (forall x, f x = []) -> flat_map f l = [].
Proof. intros H; induction l; cbn; rewrite ?H; auto. Qed.

Lemma events_inline_inlines i : flat_map ev_inline (events_inline i) = inline_preorder i.
Proof.
  induction i using inline_ind'; cbn; rewrite ?flat_map_app, ?flat_map_flat_map;
    repeat match goal with H : Forall _ _ |- _ => apply flat_map_ext_Forall in H; rewrite H; clear H end;
    reflexivity.
Qed.
Lemma events_inlines_inlines l : flat_map ev_inline (flat_map events_inline l) = flat_map inline_preorder l.
Proof. rewrite flat_map_flat_map. apply flat_map_ext_Forall, Forall_all, events_inline_inlines. Qed.
Lemma events_block_inlines b : flat_map ev_inline (events_block b) = inlines_under b.
Proof.
  induction b using block_ind'; rewrite inlines_under_eq; cbn; rewrite ?app_nil_r, ?events_inlines_inlines;
    try reflexivity; rewrite ?flat_map_flat_map;
    try (apply flat_map_ext_Forall; assumption).
  - apply flat_map_ext_Forall. eapply Forall_impl; [|exact H]. intros it Hit. cbn.
    rewrite flat_map_flat_map. now apply flat_map_ext_Forall.
  - induction (t_rows t) as [|row rows IH]; [reflexivity|].
    cbn [flat_map concat]. rewrite concat_app, flat_map_app, IH. f_equal. cbn.
    induction row as [|c row IHr]; [reflexivity|].
    cbn [flat_map concat]. rewrite !flat_map_app, IHr. f_equal. cbn. apply events_inlines_inlines.
Qed.
Lemma events_document_inlines d : flat_map ev_inline (events_document d) = doc_inlines d.
Proof.
  rewrite doc_inlines_eq. cbn. rewrite flat_map_flat_map. apply flat_map_ext_Forall, Forall_all, events_block_inlines.
Qed.
Lemma events_inline_no_block i : flat_map ev_block (events_inline i) = [].
Proof.
  induction i using inline_ind'; cbn; rewrite ?flat_map_app, ?flat_map_flat_map;
    repeat match goal with H : Forall _ _ |- _ => apply flat_map_ext_Forall in H; rewrite H; clear H end;
    rewrite ?flat_map_nil by reflexivity; reflexivity.
Qed.
Lemma events_inlines_no_block l : flat_map ev_block (flat_map events_inline l) = [].
Proof. rewrite flat_map_flat_map. apply flat_map_nil, events_inline_no_block. Qed.
Lemma events_block_blocks b : flat_map ev_block (events_block b) = block_preorder b.
Proof.
  induction b using block_ind'; cbn; rewrite ?events_inlines_no_block; try reflexivity; f_equal;
    rewrite ?flat_map_flat_map; try (apply flat_map_ext_Forall; assumption).
  - apply flat_map_ext_Forall. eapply Forall_impl; [|exact H]. intros it Hit. cbn.
    rewrite flat_map_flat_map. now apply flat_map_ext_Forall.
  - apply flat_map_nil. intros row. cbn. rewrite flat_map_flat_map. apply flat_map_nil.
    intros c. cbn. apply events_inlines_no_block.
Qed.
Lemma events_document_blocks d : flat_map ev_block (events_document d) = doc_blocks d.
Proof.
  cbn. rewrite flat_map_flat_map. apply flat_map_ext_Forall, Forall_all, events_block_blocks.
Qed.
