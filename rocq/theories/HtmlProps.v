(** Lemmas behind PropHtml.v. *)
From Coq Require Import String.
From Verif Require Export HtmlView.
Import ListNotations.
Open Scope list_scope.

(** ** C22 *)
Lemma escape_no_markup s c : In c (escape s) -> c <> 60%N /\ c <> 62%N /\ c <> 34%N /\ c <> 39%N.
Proof.
  unfold escape. intro H. apply in_flat_map in H as (x & _ & H).
  revert H. apply (escape_char_cases (fun x => In c (escape_char x) -> c <> 60%N /\ c <> 62%N /\ c <> 34%N /\ c <> 39%N)); try (cbn; intuition (subst; discriminate)).
  intro Hx. rewrite (escape_char_plain x Hx). apply special_false in Hx as (H1&H2&H3&H4&H5).
  intros [<-|[]]. apply N.eqb_neq in H2, H3, H4, H5. auto.
Qed.
Lemma map_TChar_inj a b : map TChar a = map TChar b -> a = b.
Proof. revert b; induction a as [|x a IH]; intros [|y b] H; cbn in H; try congruence. inversion H. f_equal; auto. Qed.
Lemma escape_inj a b : escape a = escape b -> a = b.
Proof. intro H. apply map_TChar_inj. pose proof (tokens_escape a) as Ha. rewrite H, tokens_escape in Ha. congruence. Qed.

(** ** Side conditions *)
Lemma plain_label_tokens s : plain_label s = true -> tokens s = Some (map TChar s).
Proof.
  induction s as [|c s IH]; intro H; [reflexivity|]. unfold plain_label in H; cbn [forallb] in H.
  apply andb_true_iff in H as [H1 H2]. apply negb_true_iff in H1. rewrite !orb_false_iff in H1. destruct H1 as [[A B] C].
  apply (tokens_app [c] s [TChar c]); [|apply IH, H2]. apply tokens_run. cbn [lex_run lex_step]. rewrite A, B, C. reflexivity.
Qed.
Lemma no_raw_html_ok d : no_raw_html d -> Forall raw_ok (raw_strings d).
Proof.
  intros (H1 & H2 & H3). unfold raw_strings. apply Forall_app. split; apply Forall_forall; intros s Hs;
    apply in_flat_map in Hs as (x & Hx & Hs).
  - destruct x; cbn in Hs; try contradiction. exfalso. eapply H1, Hx.
  - destruct x as [| | | | | |r| | | |a|]; cbn in Hs; try contradiction; [exfalso; eapply H2, Hx|].
    destruct a as [t bs]. cbn in Hs. destruct t; try contradiction. destruct Hs as [<-|[]].
    apply H3 in Hx. exists (map TChar name). split; [apply plain_label_tokens, Hx|apply balanced_chars].
Qed.

(** ** C24 *)
Lemma tags_app a b : tags_of (a ++ b) = tags_of a ++ tags_of b.
Proof. apply flat_map_app. Qed.
Lemma tags_chars s : tags_of (map TChar s) = [].
Proof. induction s; cbn; auto. Qed.
Definition ntags (l : list node) : list tok := tags_of (flatten_all l).
Lemma ntags_app a b : ntags (a ++ b) = ntags a ++ ntags b.
Proof. unfold ntags. rewrite flatten_all_app, tags_app. reflexivity. Qed.
Lemma ntags_nil : ntags [] = [].
Proof. reflexivity. Qed.
Definition ctag n a : list tok := tags_of [TOpen n a].
Lemma ntags_elem n a k : ntags [Elem n a k] = ctag n a ++ ntags k ++ [TClose n].
Proof.
  unfold ntags, ctag, flatten_all. cbn [flat_map flatten]. rewrite app_nil_r.
  change (TOpen n a :: flat_map flatten k ++ [TClose n]) with ([TOpen n a] ++ flat_map flatten k ++ [TClose n]).
  rewrite !tags_app. reflexivity.
Qed.
Lemma ntags_chars s : ntags [Chars s] = [].
Proof. unfold ntags, flatten_all. cbn [flat_map flatten]. rewrite app_nil_r. apply tags_chars. Qed.
Lemma ntags_cons n l : ntags (n :: l) = ntags [n] ++ ntags l.
Proof. apply (ntags_app [n] l). Qed.

Lemma ntags_two n m : ntags [n; m] = ntags [n] ++ ntags [m].
Proof. apply (ntags_app [n] [m]). Qed.

Definition blank_def (x : link_definition) : link_definition :=
  LinkDefinition (ld_label x) [] (option_map (fun _ => []) (ld_title x)).
Section Blank.
Variables (a : str -> str) (p : str) (num : str -> option N) (def1 def2 : list inline -> option link_definition).
Hypothesis Hdef : forall l, def2 l = option_map blank_def (def1 l).
Notation v1 := (view_inline a p num def1).
Notation v2 := (view_inline a p num def2).
Lemma flat_map_map' {A B C} (f : B -> list C) (g : A -> B) l : flat_map f (map g l) = flat_map (fun x => f (g x)) l.
Proof. induction l; cbn; congruence. Qed.
Lemma ntags_flat {A} (f g : A -> list node) l :
  Forall (fun x => ntags (f x) = ntags (g x)) l -> ntags (flat_map f l) = ntags (flat_map g l).
Proof. induction 1 as [|x l Hx Hl IH]; cbn [flat_map]; [reflexivity|]. rewrite !ntags_app. congruence. Qed.
Lemma blank_inline_tags i : ntags (v1 i) = ntags (v2 (blank_inline i)).
Proof.
  assert (HL : forall l, Forall (fun i => ntags (v1 i) = ntags (v2 (blank_inline i))) l ->
     ntags (flat_map v1 l) = ntags (flat_map v2 (map blank_inline l))).
  { intros l H. rewrite flat_map_map'. apply ntags_flat, H. }
  induction i as [s| |s|s|d t c Hc|l t Hl Ht|im|c Hc|c Hc|c Hc|s|s|] using inline_ind';
    cbn [view_inline blank_inline link_children link_destination link_title lr_label lr_text image_title image_destination image_alt];
    try reflexivity; unfold elem; rewrite ?ntags_elem, ?ntags_chars; try reflexivity;
    try (rewrite (HL c Hc)); try reflexivity.
  - destruct t; reflexivity.
  - rewrite Hdef. destruct (def1 l) as [x|]; cbn [option_map]; [|reflexivity].
    rewrite !ntags_elem, (HL t Ht). cbn [blank_def ld_destination ld_title].
    destruct (ld_title x); reflexivity.
  - destruct (image_title im); reflexivity.
Qed.
Lemma blank_inlines_tags l : ntags (view_inlines a p num def1 l) = ntags (view_inlines a p num def2 (map blank_inline l)).
Proof. unfold view_inlines. rewrite flat_map_map'. apply ntags_flat, Forall_forall. intros; apply blank_inline_tags. Qed.
Lemma blank_row_tags c al r : ntags [view_row a p num def1 c al r] = ntags [view_row a p num def2 c al (map (map blank_inline) r)].
Proof.
  unfold view_row, elem. rewrite !ntags_elem. f_equal. f_equal. revert al.
  induction r as [|x r IH]; intro al; cbn [view_cells map]; [reflexivity|].
  rewrite (ntags_cons (elem _ _ _)), (ntags_cons (elem _ _ (view_inlines a p num def2 _))). unfold elem.
  rewrite !ntags_elem, blank_inlines_tags, IH. reflexivity.
Qed.
Lemma blank_rows_tags c al rows : ntags (map (view_row a p num def1 c al) rows)
  = ntags (map (view_row a p num def2 c al) (map (map (map blank_inline)) rows)).
Proof.
  induction rows as [|r rows IH]; cbn [map]; [reflexivity|].
  rewrite (ntags_cons (view_row a p num def1 _ _ _)), (ntags_cons (view_row a p num def2 _ _ _)), IH, blank_row_tags. reflexivity.
Qed.
Lemma list_elem_tags k x y : ntags x = ntags y -> ntags [view_list_elem k x] = ntags [view_list_elem k y].
Proof. intro H. destruct k as [n|[]]; cbn [view_list_elem]; unfold elem; rewrite !ntags_elem, H; reflexivity. Qed.
Lemma blank_block_tags b : ntags (view_block a p num def1 b) = ntags (view_block a p num def2 (blank_block b)).
Proof.
  assert (HL : forall l, Forall (fun i => ntags (view_block a p num def1 i) = ntags (view_block a p num def2 (blank_block i))) l ->
     ntags (flat_map (view_block a p num def1) l) = ntags (flat_map (view_block a p num def2) (map blank_block l))).
  { intros l H. rewrite flat_map_map'. apply ntags_flat, H. }
  induction b as [c|h| |bs H|k items H|c|s|d|t|l bs H|t bs H|] using block_ind';
    cbn [view_block blank_block h_kind h_content fd_blocks fd_label ga_blocks ga_type l_items l_kind cb_literal t_rows t_alignments];
    try reflexivity; unfold elem; rewrite ?ntags_elem, ?ntags_chars; try reflexivity;
    rewrite <- ?blank_inlines_tags; try reflexivity; try (rewrite (HL _ H); reflexivity).
  - apply list_elem_tags. rewrite map_map. induction H as [|it items Hit _ IH]; cbn [map]; [reflexivity|].
    rewrite (ntags_cons (Elem _ _ (_ ++ flat_map (view_block a p num def1) _))),
      (ntags_cons (Elem _ _ (_ ++ flat_map (view_block a p num def2) _))), IH.
    rewrite !ntags_elem, !ntags_app. cbn [li_task li_blocks]. rewrite (HL _ Hit). reflexivity.
  - rewrite !ntags_two, !ntags_elem.
    rewrite !firstn_map, !skipn_map, <- !blank_rows_tags. reflexivity.
  - destruct (num l); [|reflexivity]. rewrite !ntags_elem, !ntags_two, !ntags_elem, (HL _ H). reflexivity.
  - rewrite (ntags_cons (Elem (lit "p") _ _)), (ntags_cons (Elem (lit "p") _ _) (flat_map (view_block a p num def2) _)), (HL _ H). reflexivity.
Qed.
End Blank.

Lemma preorder_blank b : block_preorder (blank_block b) = map blank_block (block_preorder b).
Proof.
  assert (HL : forall l, Forall (fun b => block_preorder (blank_block b) = map blank_block (block_preorder b)) l ->
    flat_map block_preorder (map blank_block l) = map blank_block (flat_map block_preorder l)).
  { induction 1 as [|x l Hx Hl IH]; cbn; [reflexivity|]. rewrite map_app. congruence. }
  induction b as [c|h| |bs H|k items H|c|s|d|t|l bs H|t bs H|] using block_ind';
    cbn [blank_block block_preorder map fd_blocks fd_label ga_blocks l_items]; try reflexivity; try (rewrite (HL _ H); reflexivity).
  f_equal. induction H as [|it items Hit _ IH]; cbn; [reflexivity|]. rewrite map_app, IH, (HL _ Hit). reflexivity.
Qed.
Lemma doc_blocks_blank d : doc_blocks (blank d) = map blank_block (doc_blocks d).
Proof.
  unfold doc_blocks, blank; cbn [d_blocks]. induction (d_blocks d) as [|b l IH]; cbn; [reflexivity|].
  rewrite map_app, IH, preorder_blank. reflexivity.
Qed.
Lemma inline_refs_blank l : inline_refs (map blank_inline l) = inline_refs l.
Proof. unfold inline_refs. induction l as [|i l IH]; cbn; [reflexivity|]. rewrite IH. destruct i; reflexivity. Qed.
Lemma block_refs_blank b : inline_refs (block_inlines (blank_block b)) = inline_refs (block_inlines b).
Proof.
  destruct b; cbn [blank_block block_inlines h_content ld_label t_rows]; try reflexivity; try apply inline_refs_blank.
  rewrite !concat_map || idtac. rewrite <- (inline_refs_blank (concat (concat (t_rows t)))). f_equal.
  rewrite !concat_map. reflexivity.
Qed.
Lemma direct_refs_blank d : direct_refs (blank d) = direct_refs d.
Proof.
  unfold direct_refs. rewrite doc_blocks_blank, flat_map_map'. apply flat_map_ext, block_refs_blank.
Qed.
Lemma footnote_number_blank d x : footnote_number (blank d) x = footnote_number d x.
Proof. unfold footnote_number. rewrite direct_refs_blank. reflexivity. Qed.
Lemma definitions_blank d : definitions (blank d) = map blank_def (definitions d).
Proof.
  unfold definitions. rewrite doc_blocks_blank. induction (doc_blocks d) as [|b l IH]; cbn; [reflexivity|].
  rewrite map_app, IH. destruct b; reflexivity.
Qed.
Lemma resolve_blank d l : resolve (blank d) l = option_map blank_def (resolve d l).
Proof.
  unfold resolve. rewrite definitions_blank, <- map_rev.
  induction (rev (definitions d)) as [|x r IH]; cbn [map find]; [reflexivity|].
  cbn [blank_def ld_label]. destruct (list_eqb inline_eqb l (ld_label x)); [reflexivity|exact IH].
Qed.
Lemma view_blank_tags a p d : ntags (view a p d) = ntags (view a p (blank d)).
Proof.
  unfold view, blank; cbn [d_blocks]. rewrite flat_map_map'. apply ntags_flat, Forall_forall. intros b _.
  rewrite (blank_block_tags a p (footnote_number d) (resolve d) (resolve (blank d)) (resolve_blank d)).
  f_equal. apply view_block_ext; auto.
  - intro x. symmetry. apply footnote_number_blank.
  - intros l x _. repeat constructor. destruct (ld_title x); repeat constructor.
  - apply Forall_forall. intros; apply Forall_forall. intros; reflexivity.
Qed.
(* side conditions depend on the blanked document only *)
Lemma inline_preorder_blank i : flat_map inline_raw (inline_preorder (blank_inline i)) = flat_map inline_raw (inline_preorder i).
Proof.
  assert (HL : forall l, Forall (fun i => flat_map inline_raw (inline_preorder (blank_inline i)) = flat_map inline_raw (inline_preorder i)) l ->
    flat_map inline_raw (flat_map inline_preorder (map blank_inline l)) = flat_map inline_raw (flat_map inline_preorder l)).
  { induction 1 as [|x l Hx Hl IH]; cbn; [reflexivity|]. rewrite !flat_map_app. congruence. }
  induction i as [s| |s|s|d t c Hc|l t Hl Ht|im|c Hc|c Hc|c Hc|s|s|] using inline_ind';
    cbn [blank_inline inline_preorder flat_map inline_raw app link_children lr_label lr_text]; try reflexivity; try (apply HL; assumption).
  rewrite !flat_map_app, (HL _ Ht). reflexivity.
Qed.
Lemma raws_blank_inlines l : flat_map inline_raw (flat_map inline_preorder (map blank_inline l)) = flat_map inline_raw (flat_map inline_preorder l).
Proof.
  induction l as [|x l IH]; cbn; [reflexivity|]. rewrite !flat_map_app, inline_preorder_blank, IH. reflexivity.
Qed.
Lemma flat_map_flat_map {A B C} (f : B -> list C) (g : A -> list B) l :
  flat_map f (flat_map g l) = flat_map (fun x => flat_map f (g x)) l.
Proof. induction l as [|x l IH]; cbn; [reflexivity|]. rewrite flat_map_app, IH. reflexivity. Qed.
Lemma raw_strings_blank d : raw_strings (blank d) = raw_strings d.
Proof.
  unfold raw_strings, doc_inlines. rewrite doc_blocks_blank, !flat_map_map', !flat_map_flat_map. f_equal; apply flat_map_ext; intro b.
  - destruct b; cbn [blank_block block_inlines h_content ld_label t_rows]; try reflexivity; try apply raws_blank_inlines.
    rewrite <- (raws_blank_inlines (concat (concat (t_rows t)))), !concat_map. reflexivity.
  - destruct b; reflexivity.
Qed.
Lemma tables_ok_blank d : tables_ok (blank d) <-> tables_ok d.
Proof.
  unfold tables_ok. rewrite doc_blocks_blank. split.
  - intros H t Ht E. specialize (H (Table (map (map (map blank_inline)) (t_rows t)) (t_alignments t))).
    cbn in H. apply H; [|rewrite E; reflexivity]. apply in_map_iff. exists (BTable t). auto.
  - intros H t Ht. apply in_map_iff in Ht as (b & E & Hb). destruct b; cbn in E; try discriminate.
    inversion E; subst; cbn. intro E'. apply (H _ Hb). destruct (t_rows t0); [reflexivity|discriminate].
Qed.
Lemma tags_determined uw cfg d1 d2 : blank d1 = blank d2 -> Forall raw_ok (raw_strings d1) -> tables_ok d1 ->
  exists out1 out2 ts1 ts2,
    render_html uw d1 cfg = Some out1 /\ render_html uw d2 cfg = Some out2 /\
    tokens out1 = Some ts1 /\ tokens out2 = Some ts2 /\ tags_of ts1 = tags_of ts2.
Proof.
  intros E R T.
  assert (R2 : Forall raw_ok (raw_strings d2)) by (rewrite <- raw_strings_blank, <- E, raw_strings_blank; exact R).
  assert (T2 : tables_ok d2) by (apply tables_ok_blank; rewrite <- E; apply tables_ok_blank; exact T).
  destruct (render_html_view uw d1 cfg R T) as (o1 & H1 & K1 & _).
  destruct (render_html_view uw d2 cfg R2 T2) as (o2 & H2 & K2 & _).
  exists o1, o2. do 2 eexists. repeat (split; [eassumption|]).
  change (ntags (view escape (hc_anchor_prefix cfg) d1) = ntags (view escape (hc_anchor_prefix cfg) d2)).
  rewrite view_blank_tags, E, <- view_blank_tags. reflexivity.
Qed.

(** ** C25 *)
Lemma resolve_In d l x : resolve d l = Some x -> In x (definitions d) /\ list_eqb inline_eqb l (ld_label x) = true.
Proof. unfold resolve. intro H. apply find_some in H as [H1 H2]. split; [apply in_rev, H1|exact H2]. Qed.
Lemma view_plain p d : plain p -> Forall plain (attr_strings d) -> view escape p d = view (fun s => s) p d.
Proof.
  intros Hp H. unfold attr_strings in H. apply Forall_app in H as [H1 H2]. unfold view.
  assert (P : forall s, plain s -> agree escape (fun s => s) s) by (intros s Hs; apply escape_plain, Hs).
  enough (E : Forall (fun b => view_block escape p (footnote_number d) (resolve d) b = view_block (fun s => s) p (footnote_number d) (resolve d) b) (d_blocks d))
    by (induction E; cbn; congruence).
  apply Forall_forall. intros b Hb. apply view_block_ext; auto.
  - intro n. unfold plain in *. rewrite !escape_app, escape_dec, (escape_plain _ Hp). reflexivity.
  - intros l x Hx. apply resolve_In in Hx as [Hx _]. unfold definitions in Hx.
    apply in_flat_map in Hx as (b' & Hb' & Hx). destruct b'; try contradiction. destruct Hx as [<-|[]].
    apply Forall_flat_map' in H2. rewrite Forall_forall in H2. specialize (H2 _ Hb'). cbn [block_attrs] in H2.
    eapply Forall_impl; [exact P|exact H2].
  - apply Forall_forall. intros b' Hb'. unfold battrs. apply Forall_forall. intros s Hs.
    apply P. rewrite Forall_forall in H1. apply H1. apply in_flat_map in Hs as (i & Hi & Hs).
    unfold iattrs in Hs. apply in_flat_map in Hs as (j & Hj & Hs). apply in_flat_map. exists j. split; [|exact Hs].
    unfold doc_inlines. apply in_flat_map. exists b'. split; [|apply in_flat_map; eauto].
    unfold doc_blocks. apply in_flat_map; eauto.
Qed.

(** ** C27, C28 *)
Lemma first_occurrences_In x l : In x (first_occurrences l) <-> In x l.
Proof.
  induction l as [|y l IH]; cbn; [tauto|]. rewrite filter_In, IH. split.
  - tauto.
  - intros [H|H]; [auto|]. destruct (str_eqb x y) eqn:E.
    + apply str_eqb_eq in E. auto.
    + right. split; [exact H|]. reflexivity.
Qed.
Lemma first_occurrences_NoDup l : NoDup (first_occurrences l).
Proof.
  induction l as [|y l IH]; cbn; constructor.
  - rewrite filter_In, str_eqb_refl. cbn. intros [_ H]. discriminate.
  - apply NoDup_filter, IH.
Qed.
Lemma position_nth x l : NoDup l -> forall n, position x l = Some n <-> (1 <= n)%N /\ nth_error l (N.to_nat (n - 1)) = Some x.
Proof.
  induction 1 as [|y l Hy Hl IH]; intro n; cbn [position].
  - split; [discriminate|]. intros [_ H]. destruct (N.to_nat (n - 1)); discriminate.
  - destruct (str_eqb x y) eqn:E.
    + apply str_eqb_eq in E. subst y. split.
      * intro H. inversion H; subst. split; [lia|reflexivity].
      * intros [H1 H2]. destruct (N.to_nat (n - 1)) as [|k] eqn:K.
        -- f_equal. lia.
        -- exfalso. apply Hy. eapply nth_error_In, H2.
    + apply str_eqb_neq in E. split.
      * intro H. destruct (position x l) as [m|] eqn:P; [|discriminate]. cbn in H. inversion H; subst.
        apply IH in P as [H1 H2]; [|reflexivity] || idtac.
        destruct (proj1 (IH m) eq_refl) as [H1 H2]. split; [lia|].
        replace (N.to_nat (N.succ m - 1)) with (S (N.to_nat (m - 1))) by lia. exact H2.
      * intros [H1 H2]. destruct (N.to_nat (n - 1)) as [|k] eqn:K; [cbn in H2; congruence|]. cbn in H2.
        assert (P : position x l = Some (n - 1)%N).
        { apply IH. split; [lia|]. replace (N.to_nat (n - 1 - 1)) with k by lia. exact H2. }
        rewrite P. cbn. f_equal. lia.
Qed.
Lemma footnote_number_spec d x n : footnote_number d x = Some n <->
  (1 <= n)%N /\ nth_error (first_occurrences (direct_refs d)) (N.to_nat (n - 1)) = Some x.
Proof. apply position_nth, first_occurrences_NoDup. Qed.
Lemma footnote_number_direct d x : footnote_number d x <> None <-> In x (direct_refs d).
Proof.
  unfold footnote_number. destruct (position x (first_occurrences (direct_refs d))) eqn:P.
  - split; [intros _|discriminate]. apply first_occurrences_In.
    destruct (in_dec (list_eq_dec N.eq_dec) x (first_occurrences (direct_refs d))) as [H|H]; [exact H|].
    apply position_none in H. congruence.
  - split; [congruence|]. intro H. apply first_occurrences_In, (proj1 (position_none _ _) P) in H. contradiction.
Qed.

(** ** C29 *)
Lemma list_eqb_eq {A} (eqb : A -> A -> bool) l : Forall (fun x => forall y, eqb x y = true <-> x = y) l ->
  forall m, list_eqb eqb l m = true <-> l = m.
Proof.
  induction 1 as [|x l Hx Hl IH]; intros [|y m]; cbn; split; intro H; try congruence.
  - apply andb_true_iff in H as [H1 H2]. f_equal; [apply Hx, H1|apply IH, H2].
  - inversion H; subst. apply andb_true_iff. split; [apply Hx|apply IH]; reflexivity.
Qed.
Lemma opt_str_eqb_eq a b : opt_str_eqb a b = true <-> a = b.
Proof.
  destruct a, b; cbn; split; intro H; try congruence.
  - apply str_eqb_eq in H. congruence.
  - inversion H. apply str_eqb_refl.
Qed.
Lemma inline_eqb_eq i : forall j, inline_eqb i j = true <-> i = j.
Proof.
  induction i as [s| |s|s|d t c Hc|l t Hl Ht|im|c Hc|c Hc|c Hc|s|s|] using inline_ind'; intros [];
    cbn [inline_eqb]; try (split; congruence);
    try (rewrite str_eqb_eq; split; congruence);
    try (rewrite (list_eqb_eq _ _ Hc); split; congruence).
  - destruct l as [d' t' c']. cbn [link_destination link_title link_children].
    rewrite !andb_true_iff, str_eqb_eq, opt_str_eqb_eq, (list_eqb_eq _ _ Hc). split; [intuition congruence|intro E; inversion E; auto].
  - destruct l0 as [l' t']. cbn [lr_label lr_text].
    rewrite !andb_true_iff, (list_eqb_eq _ _ Hl), (list_eqb_eq _ _ Ht). split; [intuition congruence|intro E; inversion E; auto].
  - destruct im, im0. cbn. rewrite !andb_true_iff, !str_eqb_eq, opt_str_eqb_eq. split; [intuition congruence|intro E; inversion E; auto].
Qed.
Lemma label_eqb_eq l m : list_eqb inline_eqb l m = true <-> l = m.
Proof. apply list_eqb_eq, Forall_forall. intros; apply inline_eqb_eq. Qed.
Lemma find_rev_last {A} (f : A -> bool) l x : find f (rev l) = Some x <->
  exists pre post, l = pre ++ x :: post /\ f x = true /\ Forall (fun y => f y = false) post.
Proof.
  induction l as [|z l IH] using rev_ind; cbn.
  - split; [discriminate|]. intros (pre & post & E & _). destruct pre; discriminate.
  - rewrite rev_app_distr. cbn. destruct (f z) eqn:E.
    + split.
      * intro H. inversion H; subst. exists l, []. auto.
      * intros (pre & post & E' & Hx & Hp). destruct post as [|w post] using rev_ind.
        -- apply app_inj_tail in E' as [_ E']. congruence.
        -- rewrite app_comm_cons, app_assoc in E'. apply app_inj_tail in E' as [_ E'].
           apply Forall_app in Hp as [_ Hp]. inversion Hp; subst. congruence.
    + rewrite IH. split.
      * intros (pre & post & -> & Hx & Hp). exists pre, (post ++ [z]). rewrite <- app_assoc. cbn.
        split; [reflexivity|]. split; [exact Hx|]. apply Forall_app; auto.
      * intros (pre & post & E' & Hx & Hp). destruct post as [|w post] using rev_ind.
        -- apply app_inj_tail in E' as [_ E']. congruence.
        -- rewrite app_comm_cons, app_assoc in E'. apply app_inj_tail in E' as [E' _].
           apply Forall_app in Hp as [Hp _]. exists pre, post. auto.
Qed.
Lemma resolve_some d l x : resolve d l = Some x <->
  exists pre post, definitions d = pre ++ x :: post /\ ld_label x = l /\ Forall (fun y => ld_label y <> l) post.
Proof.
  unfold resolve. rewrite find_rev_last. split; intros (pre & post & E & H1 & H2); exists pre, post; (split; [exact E|]).
  - apply label_eqb_eq in H1. split; [auto|]. eapply Forall_impl; [|exact H2]. intros y Hy E'. symmetry in E'.
    apply label_eqb_eq in E'. congruence.
  - split; [apply label_eqb_eq; auto|]. eapply Forall_impl; [|exact H2]. intros y Hy.
    destruct (list_eqb inline_eqb l (ld_label y)) eqn:E'; [|reflexivity]. apply label_eqb_eq in E'. congruence.
Qed.
Lemma resolve_none d l : resolve d l = None <-> Forall (fun y => ld_label y <> l) (definitions d).
Proof.
  unfold resolve. rewrite Forall_forall. split.
  - intros H y Hy E. apply find_none with (x := y) in H; [|apply in_rev; rewrite rev_involutive; exact Hy].
    symmetry in E. apply label_eqb_eq in E. congruence.
  - intros H. destruct (find _ _) as [y|] eqn:E; [|reflexivity]. apply find_some in E as [E1 E2].
    apply in_rev in E1. apply label_eqb_eq in E2. exfalso. apply (H y E1). auto.
Qed.

(** ** C30 *)
Lemma oapp_none a b : oapp a b = None <-> a = None \/ b = None.
Proof. destruct a, b; cbn; intuition congruence. Qed.
Lemma dtext_tag_none n a d : dtext (tag n a d) = None <-> dtext d = None.
Proof. rewrite dtext_tag, !oapp_none. intuition congruence. Qed.
Lemma dtext_concat_none l : dtext (concat_docs l) = None <-> exists d, In d l /\ dtext d = None.
Proof.
  unfold concat_docs. rewrite dtext_fold.
  assert (G : forall acc, fold_left (fun a x => oapp a (dtext x)) l acc = None <-> acc = None \/ exists d, In d l /\ dtext d = None).
  { induction l as [|x l IH]; intro acc; cbn [fold_left].
    - split; [auto|]. intros [H|(d & [] & _)]; exact H.
    - rewrite IH, oapp_none. split.
      + intros [[H|H]|(d & H1 & H2)]; [auto|right; exists x; cbn; auto|right; exists d; cbn; auto].
      + intros [H|(d & [<-|H1] & H2)]; [auto|auto|right; eauto]. }
  rewrite G. cbn. intuition congruence.
Qed.
Lemma dtext_inline_some st i : dtext (inline_to_doc st i) <> None.
Proof.
  assert (HL : forall l, Forall (fun i => dtext (inline_to_doc st i) <> None) l -> dtext (concat_docs (map (inline_to_doc st) l)) <> None).
  { intros l H E. apply dtext_concat_none in E as (d & Hd & E). apply in_map_iff in Hd as (j & <- & Hj).
    rewrite Forall_forall in H. apply (H j Hj E). }
  induction i as [s| |s|s|d t c Hc|l t Hl Ht|im|c Hc|c Hc|c Hc|s|s|] using inline_ind'; cbn [inline_to_doc link_children lr_text lr_label];
    try discriminate; try (rewrite dtext_tag_none; try (apply HL; assumption); discriminate).
  - destruct (get_link_definition st l); [|discriminate]. rewrite dtext_tag_none. apply HL, Ht.
  - destruct (get_footnote_index st s); [|discriminate]. rewrite dtext_tag_none. discriminate.
Qed.
Lemma dtext_inlines_some st l : dtext (inlines_to_doc st l) <> None.
Proof.
  intro E. apply dtext_concat_none in E as (d & Hd & E). apply in_map_iff in Hd as (i & <- & Hi).
  apply (dtext_inline_some st i E).
Qed.
Lemma dtext_cells_none st c al r : forall i acc, dtext (cells_to_doc st c al i r acc) = None <-> dtext acc = None.
Proof.
  induction r as [|x r IH]; intros i acc; cbn [cells_to_doc]; [reflexivity|].
  rewrite IH, dtext_append, oapp_none, dtext_tag_none. pose proof (dtext_inlines_some st x). intuition congruence.
Qed.
Lemma dtext_row_some st c al r : dtext (table_row_to_doc st r c al) <> None.
Proof. unfold table_row_to_doc. rewrite dtext_tag_none, dtext_cells_none. discriminate. Qed.
Lemma dtext_table_none st t : dtext (table_to_doc st t) = None <-> t_rows t = [].
Proof.
  unfold table_to_doc. destruct (t_rows t) as [|r rows]; [cbn; tauto|].
  rewrite dtext_tag_none, dtext_append, oapp_none, !dtext_tag_none.
  assert (G : forall acc, dtext (fold_left (fun acc row => append acc (table_row_to_doc st row (lit "td") (t_alignments t))) rows acc) = None <-> dtext acc = None).
  { induction rows as [|r' rows IH]; intro acc; cbn [fold_left]; [reflexivity|].
    rewrite IH, dtext_append, oapp_none. pose proof (dtext_row_some st (lit "td") (t_alignments t) r'). intuition congruence. }
  rewrite G. pose proof (dtext_row_some st (lit "th") (t_alignments t) r). cbn [dtext]. intuition congruence.
Qed.
Definition empty_table (b : block) : Prop := match b with BTable t => t_rows t = [] | _ => False end.
Lemma dtext_block_none st b : dtext (block_to_doc st b) = None <->
  exists x, In x (displayed (get_footnote_index st) b) /\ empty_table x.
Proof.
  assert (LL : forall {A} (f : A -> list block) (g : A -> doc) l,
     Forall (fun x => dtext (g x) = None <-> exists y, In y (f x) /\ empty_table y) l ->
     (dtext (concat_docs (map g l)) = None <-> exists x, In x (flat_map f l) /\ empty_table x)).
  { intros A f g l H. rewrite dtext_concat_none. rewrite Forall_forall in H. split.
    - intros (d & Hd & E). apply in_map_iff in Hd as (x & <- & Hx). apply (H x Hx) in E as (y & Hy & E).
      exists y. split; [|exact E]. apply in_flat_map; eauto.
    - intros (y & Hy & E). apply in_flat_map in Hy as (x & Hx & Hy). exists (g x). split; [apply in_map, Hx|].
      apply (H x Hx). eauto. }
  assert (Cons : forall (P : Prop) b l, ~ empty_table b -> (P <-> exists x, In x l /\ empty_table x) ->
     (P <-> exists x, In x (b :: l) /\ empty_table x)).
  { intros P b0 l Hb H. rewrite H. split; intros (x & Hx & E); exists x; (split; [|exact E]); [right; exact Hx|].
    destruct Hx as [->|Hx]; [contradiction|exact Hx]. }
  assert (None_ : forall (P : Prop) b, ~ empty_table b -> ~ P -> (P <-> exists x, In x [b] /\ empty_table x)).
  { intros P b0 Hb HP. split; [contradiction|]. intros (x & [<-|[]] & E). contradiction. }
  induction b as [c|h| |bs H|k items H|c|s|d|t|l bs H|t bs H|] using block_ind';
    cbn [block_to_doc displayed fd_blocks fd_label ga_blocks ga_type l_items l_kind].
  - apply None_; [cbn; tauto|]. rewrite dtext_tag_none. apply dtext_inlines_some.
  - apply None_; [cbn; tauto|]. rewrite dtext_tag_none. apply dtext_inlines_some.
  - apply None_; [cbn; tauto|]. rewrite dtext_tag_none. discriminate.
  - apply Cons; [cbn; tauto|]. rewrite dtext_tag_none. apply LL, H.
  - apply Cons; [cbn; tauto|].
    transitivity (dtext (concat_docs (map (fun it : list_item => tag (lit "li") []
        (append (task_to_doc (li_task it)) (concat_docs (map (block_to_doc st) (li_blocks it))))) items)) = None);
      [destruct k as [n|[]]; cbn [list_tag]; apply dtext_tag_none|].
    apply LL. eapply Forall_impl; [|exact H]. intros it Hit.
    rewrite dtext_tag_none, dtext_append, oapp_none, (LL _ _ _ _ Hit).
    assert (dtext (task_to_doc (li_task it)) <> None) by (destruct (li_task it) as [[]|]; discriminate).
    intuition congruence.
  - apply None_; [cbn; tauto|]. discriminate.
  - apply None_; [cbn; tauto|]. discriminate.
  - apply None_; [cbn; tauto|]. discriminate.
  - rewrite dtext_table_none. split.
    + intro E. exists (BTable t). cbn. auto.
    + intros (x & [<-|[]] & E). exact E.
  - destruct (get_footnote_index st l); [|split; [discriminate|intros (x & [] & _)]].
    apply Cons; [cbn; tauto|]. rewrite dtext_tag_none, dtext_append, oapp_none, !dtext_tag_none, (LL _ _ _ _ H).
    cbn [dtext]. intuition congruence.
  - apply Cons; [cbn; tauto|]. rewrite dtext_tag_none, dtext_append, oapp_none, !dtext_tag_none, (LL _ _ _ _ H).
    rewrite dtext_append. cbn [dtext oapp]. intuition congruence.
  - apply None_; [cbn; tauto|]. discriminate.
Qed.
Lemma displayed_ext n1 n2 : (forall x, n1 x = n2 x) -> forall b, displayed n1 b = displayed n2 b.
Proof.
  intro E. assert (HL : forall l, Forall (fun b => displayed n1 b = displayed n2 b) l -> flat_map (displayed n1) l = flat_map (displayed n2) l)
    by (induction 1; cbn; congruence).
  induction b as [c|h| |bs H|k items H|c|s|d|t|l bs H|t bs H|] using block_ind'; cbn [displayed fd_blocks fd_label ga_blocks l_items];
    try reflexivity; try (rewrite (HL _ H); reflexivity).
  - f_equal. induction H as [|it items Hit _ IH]; cbn; [reflexivity|]. rewrite IH, (HL _ Hit). reflexivity.
  - rewrite E, (HL _ H). reflexivity.
Qed.
Lemma render_html_none uw d cfg : render_html uw d cfg = None <->
  exists t, In (BTable t) (displayed_blocks d) /\ t_rows t = [].
Proof.
  rewrite render_html_dtext. unfold blocks_to_doc. rewrite dtext_concat_none. unfold displayed_blocks. split.
  - intros (x & Hx & E). apply in_map_iff in Hx as (b & <- & Hb). apply dtext_block_none in E as (y & Hy & E).
    destruct y; try contradiction. exists t. split; [|exact E]. apply in_flat_map. exists b. split; [exact Hb|].
    rewrite <- (displayed_ext (get_footnote_index (html_state_new cfg d))); [exact Hy|apply get_footnote_index_eq].
  - intros (t & Ht & E). apply in_flat_map in Ht as (b & Hb & Ht). eexists. split; [apply in_map, Hb|].
    apply dtext_block_none. exists (BTable t). split; [|exact E].
    rewrite (displayed_ext _ (footnote_number d)); [exact Ht|apply get_footnote_index_eq].
Qed.

(** ** C31 *)
Definition ntext (l : list node) : str := text_of (flatten_all l).
Lemma text_app a b : text_of (a ++ b) = text_of a ++ text_of b.
Proof. apply flat_map_app. Qed.
Lemma ntext_app a b : ntext (a ++ b) = ntext a ++ ntext b.
Proof. unfold ntext. rewrite flatten_all_app, text_app. reflexivity. Qed.
Lemma ntext_cons a b : ntext (a :: b) = ntext [a] ++ ntext b.
Proof. apply (ntext_app [a] b). Qed.
Lemma ntext_elem n a k : ntext [Elem n a k] = ntext k.
Proof.
  unfold ntext, flatten_all. cbn [flat_map flatten]. rewrite app_nil_r.
  change (TOpen n a :: flat_map flatten k ++ [TClose n]) with ([TOpen n a] ++ flat_map flatten k ++ [TClose n]).
  rewrite !text_app. cbn. apply app_nil_r.
Qed.
Lemma text_chars s : text_of (map TChar s) = s.
Proof. induction s as [|c s IH]; [reflexivity|]. change (c :: text_of (map TChar s) = c :: s). rewrite IH. reflexivity. Qed.
Lemma ntext_chars s : ntext [Chars s] = s.
Proof. unfold ntext, flatten_all. cbn [flat_map flatten]. rewrite app_nil_r. apply text_chars. Qed.
Lemma ntext_flat {A} (f : A -> list node) (g : A -> str) l :
  Forall (fun x => ntext (f x) = g x) l -> ntext (flat_map f l) = flat_map g l.
Proof. induction 1 as [|x l Hx Hl IH]; cbn [flat_map]; [reflexivity|]. rewrite ntext_app. congruence. Qed.
Section Text.
Variables (a : str -> str) (p : str) (num : str -> option N) (def : list inline -> option link_definition).
Definition iplain (i : inline) : bool :=
  match i with ILinkReference _ | IFootnoteReference _ | IHtml _ => false | _ => true end.
Lemma Forall_flat_preorder {A B} (P : B -> Prop) (f : A -> list B) l :
  Forall P (flat_map f l) -> Forall (fun x => Forall P (f x)) l.
Proof. apply Forall_flat_map. Qed.
Lemma shown_inline_eq i : Forall (fun j => iplain j = true) (inline_preorder i) ->
  ntext (view_inline a p num def i) = shown_inline i.
Proof.
  assert (HL : forall l, Forall (fun i => Forall (fun j => iplain j = true) (inline_preorder i) -> ntext (view_inline a p num def i) = shown_inline i) l ->
     Forall (fun j => iplain j = true) (flat_map inline_preorder l) -> ntext (flat_map (view_inline a p num def) l) = flat_map shown_inline l).
  { intros l H R. apply ntext_flat. apply Forall_flat_preorder in R. rewrite Forall_forall in *. auto. }
  induction i as [s| |s|s|d t c Hc|l t Hl Ht|im|c Hc|c Hc|c Hc|s|s|] using inline_ind'; intro R;
    cbn [inline_preorder link_children lr_label lr_text] in R; apply Forall_cons_iff in R as [R0 R]; try discriminate R0;
    cbn [view_inline shown_inline link_children]; unfold elem; rewrite ?ntext_elem, ?ntext_chars; try reflexivity; apply HL; assumption.
Qed.
Lemma shown_inlines_eq l : Forall (fun j => iplain j = true) (flat_map inline_preorder l) ->
  ntext (view_inlines a p num def l) = flat_map shown_inline l.
Proof.
  intro R. apply ntext_flat. apply Forall_flat_preorder in R. eapply Forall_impl; [|exact R]. intro; apply shown_inline_eq.
Qed.
Definition bplain (b : block) : Prop :=
  Forall (fun j => iplain j = true) (flat_map inline_preorder (block_inlines b)) /\
  match b with
  | BHtmlBlock _ | BFootnoteDefinition _ => False
  | BGitHubAlert x => match ga_type x with Custom s => plain_label s = true | _ => True end
  | _ => True
  end.
Lemma shown_row_eq c al r : Forall (fun j => iplain j = true) (flat_map inline_preorder (concat r)) ->
  ntext [view_row a p num def c al r] = flat_map (flat_map shown_inline) r.
Proof.
  unfold view_row, elem. rewrite ntext_elem. revert al. induction r as [|x r IH]; intros al R; cbn [view_cells flat_map]; [reflexivity|].
  cbn [concat] in R. rewrite flat_map_app in R. apply Forall_app in R as [R1 R2].
  rewrite ntext_cons, (IH _ R2). unfold elem. rewrite ntext_elem, (shown_inlines_eq _ R1). reflexivity.
Qed.
Lemma shown_rows_eq c al rows : Forall (fun j => iplain j = true) (flat_map inline_preorder (concat (concat rows))) ->
  ntext (map (view_row a p num def c al) rows) = flat_map (flat_map (flat_map shown_inline)) rows.
Proof.
  induction rows as [|r rows IH]; intro R; cbn [map flat_map]; [reflexivity|].
  cbn [concat] in R. rewrite concat_app, flat_map_app in R. apply Forall_app in R as [R1 R2].
  rewrite ntext_cons, (IH R2), (shown_row_eq _ _ _ R1). reflexivity.
Qed.
Lemma icon_text t : ntext [Raw (svg_icon t)] = [].
Proof. destruct t; vm_compute; reflexivity. Qed.
Lemma shown_block_eq b : Forall bplain (block_preorder b) ->
  ntext (view_block a p num def b) = shown_block b.
Proof.
  assert (HL : forall l, Forall (fun b => Forall bplain (block_preorder b) -> ntext (view_block a p num def b) = shown_block b) l ->
     Forall bplain (flat_map block_preorder l) -> ntext (flat_map (view_block a p num def) l) = flat_map shown_block l).
  { intros l H R. apply ntext_flat. apply Forall_flat_preorder in R. rewrite Forall_forall in *. auto. }
  induction b as [c|h| |bs H|k items H|c|s|d|t|l bs H|t bs H|] using block_ind'; intro R;
    cbn [block_preorder fd_blocks ga_blocks l_items] in R; apply Forall_cons_iff in R as [[R1 R2] R];
    cbn [block_inlines] in R1; cbn [ga_type] in R2;
    cbn [view_block shown_block fd_blocks fd_label ga_blocks ga_type l_items l_kind]; unfold elem; rewrite ?ntext_elem, ?ntext_chars;
    try contradiction; try reflexivity; try (apply shown_inlines_eq, R1); try (apply HL; assumption).
  - transitivity (ntext (map (fun it => elem "li" [] (view_task (li_task it) ++ flat_map (view_block a p num def) (li_blocks it))) items));
      [destruct k as [n|[]]; cbn [view_list_elem]; apply ntext_elem|].
    apply Forall_flat_preorder in R. induction H as [|it items Hit _ IH]; cbn [map flat_map]; [reflexivity|].
    inversion R; subst. rewrite ntext_cons, IH by assumption. unfold elem. rewrite ntext_elem, ntext_app, (HL _ Hit) by assumption.
    f_equal. f_equal. destruct (li_task it) as [[]|]; reflexivity.
  - rewrite (ntext_cons (Elem (lit "thead") _ _)), !ntext_elem.
    rewrite <- (firstn_skipn 1 (t_rows t)) at 3. rewrite flat_map_app.
    assert (X : Forall (fun j => iplain j = true) (flat_map inline_preorder (concat (concat (firstn 1 (t_rows t) ++ skipn 1 (t_rows t)))))) by (rewrite firstn_skipn; exact R1).
    rewrite !concat_app, !flat_map_app in X. apply Forall_app in X as [X1 X2].
    f_equal; apply shown_rows_eq; assumption.
  - rewrite (ntext_cons (Elem (lit "p") _ _)), (HL _ H) by assumption. f_equal.
    rewrite ntext_elem, (ntext_cons (Raw (svg_icon t))), icon_text. cbn [app].
    destruct t; try reflexivity. unfold ntext, flatten_all. cbn [alert_title flat_map flatten].
    rewrite (plain_label_tokens _ R2), app_nil_r. apply text_chars.
Qed.
End Text.
Lemma shown_eq a p d : no_references d -> no_raw_html d -> text_of (flatten_all (view a p d)) = shown d.
Proof.
  intros (N1 & N2 & N3) (M1 & M2 & M3). change (ntext (view a p d) = shown d). apply ntext_flat.
  apply Forall_forall. intros b Hb. apply shown_block_eq.
  apply Forall_forall. intros x Hx. assert (Hx' : In x (doc_blocks d)) by (apply in_flat_map; eauto). split.
  - apply Forall_forall. intros j Hj. assert (Hj' : In j (doc_inlines d)) by (apply in_flat_map; eauto).
    destruct j; try reflexivity; exfalso; [eapply M1|eapply N1|eapply N2]; exact Hj'.
  - destruct x as [| | | | | |r| | |f|[t bs]|]; auto; [eapply M2, Hx'|eapply N3, Hx'|]. cbn. destruct t; auto. eapply M3, Hx'.
Qed.
