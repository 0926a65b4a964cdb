(** What overridden transformer methods see and do (C87-C89). *)
From Verif Require Import TransformFacts ExpandFacts.
From Verif Require Export SpecHooks.

Lemma mapM_noting {E A B} (m : A -> M (list E) B) (g : A -> B) (ev : A -> list E) l :
  Forall (fun x => forall s, m x s = (g x, s ++ ev x)) l ->
  forall s, mapM m l s = (map g l, s ++ flat_map ev l).
Proof.
  induction 1 as [|x l Hx _ IH]; intros s; cbn; [unfold ret; now rewrite app_nil_r|].
  unfold bind, ret. rewrite Hx, IH. now rewrite app_assoc.
Qed.

Ltac hooks := unfold noting, bind, ret;
  repeat (erewrite mapM_noting; [|eassumption || (apply Forall_all; intros; eauto)]);
  rewrite <- ?app_assoc; try reflexivity.

Section Plain.
  Variable f : rebuilders.
  Local Notation t := (noting_transformer f).
  Lemma note_inline i : forall s, transform_inline t i s = (rebuild_inline f i, s ++ events_inline i).
  Proof. induction i using inline_ind'; intros st; cbn; hooks. Qed.
  Lemma note_inlines l s : mapM (transform_inline t) l s = (map (rebuild_inline f) l, s ++ flat_map events_inline l).
  Proof. apply mapM_noting, Forall_all, note_inline. Qed.
  Lemma note_cell c : forall s, transform_table_cell t c s = (rebuild_cell f c, s ++ events_cell c).
  Proof. intros s. unfold transform_table_cell. cbn. unfold noting. rewrite note_inlines. now rewrite <- app_assoc. Qed.
  Lemma note_row c : forall s, transform_table_row t c s = (rebuild_row f c, s ++ events_row c).
  Proof.
    intros s. unfold transform_table_row. cbn. unfold noting.
    rewrite (mapM_noting _ (rebuild_cell f) events_cell) by (apply Forall_all, note_cell). now rewrite <- app_assoc.
  Qed.
  Lemma note_heading h : forall s,
    transform_heading t h s = (on_heading f h (Heading (h_kind h) (map (rebuild_inline f) (h_content h))),
                               s ++ EHeading h :: flat_map events_inline (h_content h)).
  Proof. intros s. unfold transform_heading. cbn. unfold noting, bind, ret. rewrite note_inlines. now rewrite <- app_assoc. Qed.
  Lemma note_block b : forall s, transform_block t b s = (rebuild_block f b, s ++ events_block b).
  Proof.
    induction b using block_ind'; intros st; cbn [transform_block rebuild_block events_block];
      cbn [tr_block tr_list_item tr_code_block tr_footnote_definition tr_github_alert noting_transformer];
      unfold noting, bind, ret; rewrite ?note_inlines, ?note_heading, <- ?app_assoc; try reflexivity;
      try (erewrite mapM_noting by eassumption; now rewrite <- ?app_assoc).
    - rewrite (mapM_noting _ (fun it => on_list_item f it (ListItem (li_task it) (map (rebuild_block f) (li_blocks it))))
                 (fun it => EListItem it :: flat_map events_block (li_blocks it))).
      + now rewrite <- app_assoc.
      + eapply Forall_impl; [|eassumption]. intros it Hit s. cbn beta in Hit. erewrite mapM_noting by exact Hit. now rewrite <- app_assoc.
    - rewrite (mapM_noting _ (rebuild_row f) events_row) by (apply Forall_all, note_row). now rewrite <- app_assoc.
  Qed.
  Lemma note_document d s : transform_document t d s = (rebuild_document f d, s ++ events_document d).
  Proof.
    unfold transform_document. cbn. unfold noting, bind, ret.
    rewrite (mapM_noting _ (rebuild_block f) events_block) by (apply Forall_all, note_block). now rewrite <- app_assoc.
  Qed.
End Plain.

Section Generic.
  Context {T : Type}.
  Variable f : grebuilders T.
  Local Notation t := (noting_gtransformer f).
  Lemma gnote_inline i : forall s, gtransform_inline t i s = (grebuild_inline f i, s ++ gevents_inline i).
  Proof. induction i using ginline_ind'; intros st; cbn; hooks. Qed.
  Lemma gnote_inlines l s : mapM (gtransform_inline t) l s = (map (grebuild_inline f) l, s ++ flat_map gevents_inline l).
  Proof. apply mapM_noting, Forall_all, gnote_inline. Qed.
  Lemma gnote_cell c : forall s, gtransform_table_cell t c s = (grebuild_cell f c, s ++ gevents_cell c).
  Proof. intros s. unfold gtransform_table_cell. cbn. unfold noting. rewrite gnote_inlines. now rewrite <- app_assoc. Qed.
  Lemma gnote_row c : forall s, gtransform_table_row t c s = (grebuild_row f c, s ++ gevents_row c).
  Proof.
    intros s. unfold gtransform_table_row. cbn. unfold noting.
    rewrite (mapM_noting _ (grebuild_cell f) gevents_cell) by (apply Forall_all, gnote_cell). now rewrite <- app_assoc.
  Qed.
  Lemma gnote_heading h : forall s,
    gtransform_heading t h s = (gon_heading f h (GHeading (gh_kind h) (map (grebuild_inline f) (gh_content h)) (gh_data h)),
                               s ++ GEHeading h :: flat_map gevents_inline (gh_content h)).
  Proof. intros s. unfold gtransform_heading. cbn. unfold noting, bind, ret. rewrite gnote_inlines. now rewrite <- app_assoc. Qed.
  Lemma gnote_block b : forall s, gtransform_block t b s = (grebuild_block f b, s ++ gevents_block b).
  Proof.
    induction b using gblock_ind'; intros st; cbn [gtransform_block grebuild_block gevents_block];
      cbn [gtr_block gtr_list_item gtr_code_block gtr_footnote_definition gtr_github_alert noting_gtransformer];
      unfold noting, bind, ret; rewrite ?gnote_inlines, ?gnote_heading, <- ?app_assoc; try reflexivity;
      try (erewrite mapM_noting by eassumption; now rewrite <- ?app_assoc).
    - rewrite (mapM_noting _ (fun it => gon_list_item f it (GListItem (gli_task it) (map (grebuild_block f) (gli_blocks it)) (gli_data it)))
                 (fun it => GEListItem it :: flat_map gevents_block (gli_blocks it))).
      + now rewrite <- app_assoc.
      + eapply Forall_impl; [|eassumption]. intros it Hit s. cbn beta in Hit. erewrite mapM_noting by exact Hit. now rewrite <- app_assoc.
    - rewrite (mapM_noting _ (grebuild_row f) gevents_row) by (apply Forall_all, gnote_row). now rewrite <- app_assoc.
  Qed.
  Lemma gnote_document d s : gtransform_document t d s = (grebuild_document f d, s ++ gevents_document d).
  Proof.
    unfold gtransform_document. cbn. unfold noting, bind, ret.
    rewrite (mapM_noting _ (grebuild_block f) gevents_block) by (apply Forall_all, gnote_block). now rewrite <- app_assoc.
  Qed.
End Generic.

Section Strip.
  Context {T : Type}.
  Lemma quiet_flat {A} (ev : A -> list event) l : quiet (flat_map ev l) = flat_map (fun x => quiet (ev x)) l.
  Proof. unfold quiet. induction l; cbn; [reflexivity|]. now rewrite filter_app, IHl. Qed.
  Lemma strip_flat {A B} (ge : A -> list (gevent T)) (ev : B -> list event) (st : A -> B) l :
    Forall (fun x => map strip_event (ge x) = quiet (ev (st x))) l ->
    map strip_event (flat_map ge l) = quiet (flat_map ev (map st l)).
  Proof.
    intros H. rewrite quiet_flat. induction H as [|x l Hx _ IH]; cbn; [reflexivity|]. now rewrite map_app, Hx, IH.
  Qed.
  Lemma quiet_app a b : quiet (a ++ b) = quiet a ++ quiet b.
  Proof. apply filter_app. Qed.
  Lemma strip_events_inline (i : ginline T) : map strip_event (gevents_inline i) = quiet (events_inline (strip_inline i)).
  Proof.
    induction i using ginline_ind'; cbn; try reflexivity; fold (quiet);
      rewrite ?map_app; repeat rewrite (strip_flat _ events_inline strip_inline) by assumption;
      rewrite <- ?quiet_app; reflexivity.
  Qed.
  Lemma strip_events_inlines (l : list (ginline T)) :
    map strip_event (flat_map gevents_inline l) = quiet (flat_map events_inline (map strip_inline l)).
  Proof. apply strip_flat, Forall_all, strip_events_inline. Qed.
  Lemma strip_events_row (r : list (list (ginline T))) :
    map strip_event (gevents_row r) = quiet (events_row (map (map strip_inline) r)).
  Proof.
    cbn. f_equal. apply (strip_flat gevents_cell events_cell (map strip_inline)), Forall_all. intros c. cbn.
    f_equal. apply strip_events_inlines.
  Qed.
  Lemma strip_events_block (b : gblock T) : map strip_event (gevents_block b) = quiet (events_block (strip_block b)).
  Proof.
    induction b using gblock_ind'; cbn; try reflexivity; try (f_equal; apply strip_events_inlines);
      try (f_equal; apply (strip_flat _ events_block strip_block); assumption).
    - do 2 f_equal. apply strip_events_inlines.
    - f_equal. apply (strip_flat (fun it => GEListItem it :: flat_map gevents_block (gli_blocks it))
          (fun it => EListItem it :: flat_map events_block (li_blocks it))
          (fun it => ListItem (gli_task it) (map strip_block (gli_blocks it)))).
      eapply Forall_impl; [|eassumption]. intros it Hit. cbn. f_equal.
      apply (strip_flat _ events_block strip_block). exact Hit.
    - f_equal. apply (strip_flat gevents_row events_row (map (map strip_inline))), Forall_all, strip_events_row.
    - do 2 f_equal. apply (strip_flat _ events_block strip_block); assumption.
    - do 2 f_equal. apply (strip_flat _ events_block strip_block); assumption.
  Qed.
  Lemma strip_events (d : gdocument T) : map strip_event (gevents_document d) = quiet (events_document (strip_data d)).
  Proof. cbn. f_equal. apply (strip_flat _ events_block strip_block), Forall_all, strip_events_block. Qed.
End Strip.

(** ** Expansion *)
Section Replacing.
  Context {S T : Type} (f : replacers T).
  Local Notation replacing := (replacing (S := S) f).
  Lemma replace_inline_eq i : forall s, gwalk_expand_inline replacing i s = (replace_inline f i, s).
  Proof.
    induction i using ginline_ind'; intros st; cbn; destruct (rep_inline f _); try reflexivity;
      unfold map_ret, bind, ret; repeat rewrite (flat_mapM_pure _ (replace_inline f)) by assumption; reflexivity.
  Qed.
  Lemma replace_inlines_eq l s : flat_mapM (gwalk_expand_inline replacing) l s = (flat_map (replace_inline f) l, s).
  Proof. apply flat_mapM_pure, Forall_all, replace_inline_eq. Qed.
  Lemma replace_block_eq b : forall s, gwalk_expand_block replacing b s = (replace_block f b, s).
  Proof.
    induction b using gblock_ind'; intros st; cbn; destruct (rep_block f _); try reflexivity;
      unfold map_ret, bind, ret; rewrite ?replace_inlines_eq; try reflexivity;
      try (rewrite (flat_mapM_pure _ (replace_block f)) by assumption; reflexivity).
    - now rewrite (flat_mapM_pure _ (rep_list_item f)) by (apply Forall_all; reflexivity).
    - now rewrite (flat_mapM_pure _ (rep_table_row f)) by (apply Forall_all; reflexivity).
  Qed.
  Lemma replace_document_eq d s : gexpand_document replacing d s = ([replace_document f d], s).
  Proof.
    unfold gexpand_document, bind, ret. now rewrite (flat_mapM_pure _ (replace_block f)) by (apply Forall_all, replace_block_eq).
  Qed.
End Replacing.

Lemma uncalled_plain {S} (e : expanders S) (t : transformer S) d :
  expand_document (with_expanders e t) d = expand_document t d.
Proof. reflexivity. Qed.
Lemma uncalled_generic {S T} fd fc fb fi (t : gtransformer S T) d :
  gexpand_document (override_uncalled fd fc fb fi t) d = gexpand_document t d.
Proof. reflexivity. Qed.

(** ** Expansion and transformation *)
Lemma flat_mapM_single {S A B} (F : A -> M S (list B)) (m : A -> M S B) l :
  Forall (fun x => forall s, F x s = (let '(y, s') := m x s in ([y], s'))) l ->
  forall s, flat_mapM F l s = mapM m l s.
Proof.
  induction 1 as [|x l Hx _ IH]; intros s; cbn; [reflexivity|]. unfold bind, ret. rewrite Hx.
  destruct (m x s) as [y s']. now rewrite IH.
Qed.
Lemma mapM_ext {S A B} (m m' : A -> M S B) l :
  Forall (fun x => forall s, m x s = m' x s) l -> forall s, mapM m l s = mapM m' l s.
Proof.
  induction 1 as [|x l Hx _ IH]; intros s; cbn; [reflexivity|]. unfold bind. rewrite Hx.
  destruct (m' x s) as [y s']. now rewrite IH.
Qed.
Section ExpandPlain.
  Context {S : Type} (t : transformer S).
  Hypothesis Hd : forall x w, tr_document t x w = w.
  Hypothesis Hb : forall x w, tr_block t x w = w.
  Hypothesis Hit : forall x w, tr_list_item t x w = w.
  Hypothesis Hr : forall x w, tr_table_row t x w = w.
  Hypothesis Hh : forall x w, tr_heading t x w = w.
  Hypothesis Hf : forall x w, tr_footnote_definition t x w = w.
  Hypothesis Ha : forall x w, tr_github_alert t x w = w.
  Hypothesis Eb : forall x w, tr_expand_block t x w = w.
  Hypothesis Ec : forall x w, tr_expand_table_cell t x w = w.
  Hypothesis Wb : forall x w, tr_walk_expand_block t x w = w.
  Hypothesis Wi : forall x w, tr_walk_expand_inline t x w = w.
  Lemma xp_inlines l s : flat_mapM (walk_expand_inline t) l s = mapM (transform_inline t) l s.
  Proof. apply flat_mapM_single, Forall_all. intros i s0. unfold walk_expand_inline. rewrite Wi. reflexivity. Qed.
  Lemma xp_block b : forall s, walk_expand_block t b s = (let '(b', s') := transform_block t b s in ([b'], s')).
  Proof.
    induction b using block_ind'; intros st; cbn [walk_expand_block transform_block]; rewrite Wb, ?Hb;
      unfold bind, ret; rewrite ?xp_inlines; unfold transform_heading; rewrite ?Hh, ?Hf, ?Ha; unfold bind, ret;
      try (rewrite (flat_mapM_single _ (transform_block t)) by assumption);
      try (repeat match goal with |- context [let '(_, _) := ?m in _] => destruct m end; reflexivity).
    - rewrite (flat_mapM_single _ (transform_list_item t)).
      + rewrite (mapM_ext _ (fun it => tr_list_item t it (fun s => let '(bs, s') := mapM (transform_block t) (li_blocks it) s in
              (ListItem (li_task it) bs, s')))); [|apply Forall_all; reflexivity].
        destruct (mapM _ _ _). reflexivity.
      + apply Forall_all. intros it s. unfold walk_expand_list_item, transform_list_item. rewrite Hit. unfold bind, ret.
        rewrite (flat_mapM_single _ (transform_block t)).
        * now destruct (mapM _ _ _).
        * apply Forall_all. intros b s0. unfold expand_block. rewrite Eb. reflexivity.
    - rewrite (flat_mapM_single _ (transform_table_row t)).
      + destruct (mapM _ _ _). reflexivity.
      + apply Forall_all. intros r s. unfold walk_expand_table_row, transform_table_row. rewrite Hr. unfold bind, ret.
        rewrite (flat_mapM_single _ (transform_table_cell t)).
        * now destruct (mapM _ _ _).
        * apply Forall_all. intros b s0. unfold expand_table_cell. rewrite Ec. reflexivity.
  Qed.
  Lemma xp_document d s : expand_document t d s = (let '(d', s') := transform_document t d s in ([d'], s')).
  Proof.
    unfold expand_document, transform_document. rewrite Hd. unfold bind, ret.
    rewrite (flat_mapM_single _ (transform_block t)) by (apply Forall_all, xp_block). now destruct (mapM _ _ _).
  Qed.
End ExpandPlain.

Section ExpandGeneric.
  Context {S T : Type} (t : gtransformer S T).
  Hypothesis Hd : forall x w, gtr_document t x w = w.
  Hypothesis Hb : forall x w, gtr_block t x w = w.
  Hypothesis Hi : forall x w, gtr_inline t x w = w.
  Hypothesis Eh : forall x w, gtr_expand_heading t x w = w.
  Hypothesis El : forall x w, gtr_expand_link t x w = w.
  Hypothesis Eim : forall x w, gtr_expand_image t x w = w.
  Hypothesis Ecb : forall x w, gtr_expand_code_block t x w = w.
  Hypothesis Eit : forall x w, gtr_expand_list_item t x w = w.
  Hypothesis Er : forall x w, gtr_expand_table_row t x w = w.
  Hypothesis Ef : forall x w, gtr_expand_footnote t x w = w.
  Hypothesis Ea : forall x w, gtr_expand_alert t x w = w.
  Hypothesis Wb : forall x w, gtr_walk_expand_block t x w = w.
  Hypothesis Wi : forall x w, gtr_walk_expand_inline t x w = w.
  Ltac split_lets := repeat match goal with |- context [let '(_, _) := ?m in _] =>
      lazymatch m with context [let '(_, _) := _ in _] => fail | _ => destruct m end
    | |- context [let '(_, _) := gtr_link ?x ?y ?z ?w in _] => destruct (gtr_link x y z w) end; reflexivity.
  Lemma xg_inline i : forall s, gwalk_expand_inline t i s = (let '(b', s') := gtransform_inline t i s in ([b'], s')).
  Proof.
    induction i using ginline_ind'; intros st; cbn [gwalk_expand_inline gtransform_inline]; rewrite Wi, ?Hi, ?El, ?Eim;
      unfold map_ret, single, gtransform_link, bind, ret;
      try (rewrite (flat_mapM_single _ (gtransform_inline t)) by assumption); try split_lets.
    destruct (mapM _ _ _) as [l' s'].
    rewrite (flat_mapM_single _ (gtransform_inline t)) by assumption. split_lets.
  Qed.
  Lemma xg_inlines l s : flat_mapM (gwalk_expand_inline t) l s = mapM (gtransform_inline t) l s.
  Proof. apply flat_mapM_single, Forall_all, xg_inline. Qed.
  Lemma xg_block b : forall s, gwalk_expand_block t b s = (let '(b', s') := gtransform_block t b s in ([b'], s')).
  Proof.
    induction b using gblock_ind'; intros st; cbn [gwalk_expand_block gtransform_block];
      rewrite Wb, ?Hb, ?Eh, ?Ecb, ?Ef, ?Ea;
      unfold map_ret, single, bind, ret; rewrite ?xg_inlines;
      try (rewrite (flat_mapM_single _ (gtransform_block t)) by assumption); try split_lets.
    - rewrite (flat_mapM_single _ (gtransform_list_item t)).
      + rewrite (mapM_ext _ (fun it => gtr_list_item t it (fun s => let '(bs, s') := mapM (gtransform_block t) (gli_blocks it) s in
              (GListItem (gli_task it) bs (gli_data it), s')))); [|apply Forall_all; reflexivity].
        destruct (mapM _ _ _). reflexivity.
      + apply Forall_all. intros it s. now rewrite Eit.
    - rewrite (flat_mapM_single _ (gtransform_table_row t)).
      + destruct (mapM _ _ _). reflexivity.
      + apply Forall_all. intros r s. now rewrite Er.
    - unfold gtransform_footnote, bind, ret. destruct (gtr_footnote_definition _ _ _ _). reflexivity.
    - unfold gtransform_alert, bind, ret. destruct (gtr_github_alert _ _ _ _). reflexivity.
  Qed.
  Lemma xg_document d s : gexpand_document t d s = (let '(d', s') := gtransform_document t d s in ([d'], s')).
  Proof.
    unfold gexpand_document, gtransform_document. rewrite Hd. unfold bind, ret.
    rewrite (flat_mapM_single _ (gtransform_block t)) by (apply Forall_all, xg_block). now destruct (mapM _ _ _).
  Qed.
End ExpandGeneric.
