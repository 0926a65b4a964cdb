(** Proof of C102: the printers commute with a replacement of characters. *)
From Coq Require Import String Lia ZifyBool NArith.
From Verif Require Import HtmlPrinter LatexPrinter MdPrinter HtmlProps HtmlView SpecAlpha SpecAlphaPrint Pretty HtmlPrinter LatexPrinter MdPrinter.
Import ListNotations.
Open Scope list_scope.

Section Print.
  Variable uwidth : str -> nat.
  Variable upper : char -> str.
  Variable udigit : char -> bool.
  Variables f g : char -> char.
  Hypothesis H : respelling uwidth upper udigit f g.
  Notation F := (map f).
  Notation si := (spell_inline f).
  Notation sb := (spell_block f).
  Lemma p_lo : forall c, (c < 128)%N -> f c = c. Proof. apply H. Qed.
  Lemma p_inj : forall a b, f a = f b -> a = b.
  Proof. intros a b E. rewrite <- (rs_back _ _ _ _ _ H a), E. apply H. Qed.
  Lemma p_hi : forall c, (128 <= c)%N -> (128 <= f c)%N.
  Proof. intros c K. destruct (N.lt_ge_cases (f c) 128) as [X|X]; [|exact X]. apply p_lo in X as Y. apply p_inj in Y. rewrite Y in X. lia. Qed.
  Lemma p_eqb : forall c x, (x < 128)%N -> N.eqb (f c) x = N.eqb c x.
  Proof.
    intros c x L. destruct (N.eqb_spec c x) as [->|N]; [rewrite (p_lo x L); apply N.eqb_refl|]. apply N.eqb_neq. intro E. apply N. apply p_inj. now rewrite (p_lo x L).
  Qed.
  Lemma p_ascii : forall c, is_ascii (f c) = is_ascii c.
  Proof. intros c. unfold is_ascii. destruct (N.ltb_spec c 128) as [X|X]; [rewrite (p_lo c X); now apply N.ltb_lt|]. apply N.ltb_ge. now apply p_hi. Qed.
  Lemma p_fix : forall l, Forall (fun c => (c < 128)%N) l -> F l = l.
  Proof. intros l K. induction K as [|x l X _ IH]; [reflexivity|]. cbn [map]. now rewrite (p_lo x X), IH. Qed.
  Lemma p_dec : forall n, F (dec n) = dec n.
  Proof.
    intros n. apply p_fix. apply Forall_forall. intros c I. apply (proj1 (forallb_forall _ _) (dec_is_digits n)) in I. unfold is_digit in I. unfold char in *. lia.
  Qed.
  Lemma p_rep : forall n c, (c < 128)%N -> F (rep n c) = rep n c.
  Proof. intros n c L. apply p_fix. unfold rep. induction n; constructor; assumption. Qed.
  Lemma p_len : forall s, text_len uwidth (F s) = text_len uwidth s.
  Proof.
    intros s. unfold text_len. rewrite map_length, (rs_width _ _ _ _ _ H). replace (forallb is_ascii (F s)) with (forallb is_ascii s); [reflexivity|].
    induction s as [|c s IH]; [reflexivity|]. cbn [map forallb]. now rewrite p_ascii, IH.
  Qed.

  (** ** Documents of [pretty] *)
  Inductive dsim : doc -> doc -> Prop :=
  | s_nil : dsim DNil DNil
  | s_text : forall s, dsim (DText s) (DText (F s))
  | s_append : forall a a' b b', dsim a a' -> dsim b b' -> dsim (DAppend a b) (DAppend a' b')
  | s_alt : forall a a' b b', dsim a a' -> dsim b b' -> dsim (DFlatAlt a b) (DFlatAlt a' b')
  | s_group : forall a a', dsim a a' -> dsim (DGroup a) (DGroup a')
  | s_nest : forall n a a', dsim a a' -> dsim (DNest n a) (DNest n a')
  | s_line : dsim DHardline DHardline
  | s_column : forall k k', (forall n, dsim (k n) (k' n)) -> dsim (DColumn k) (DColumn k')
  | s_panic : dsim DPanic DPanic.
  Lemma t_ : forall s t, t = F s -> dsim (DText s) (DText t).
  Proof. intros s t ->. constructor. Qed.
  Lemma t_append : forall a a' b b', dsim a a' -> dsim b b' -> dsim (append a b) (append a' b').
  Proof. intros a a' b b' A B. destruct A; destruct B; cbn [append]; repeat constructor; assumption. Qed.
  Lemma t_group : forall a a', dsim a a' -> dsim (group a) (group a').
  Proof. intros a a' A. destruct A; cbn [group]; repeat constructor; assumption. Qed.
  Lemma t_nest : forall n a a', dsim a a' -> dsim (nest n a) (nest n a').
  Proof. intros n a a' A. destruct A; cbn [nest]; destruct n; repeat constructor; assumption. Qed.
  Lemma t_fold : forall A B (k k' : doc -> A -> doc) (m : A -> B) (k2 : doc -> B -> doc),
    (forall d d' x, dsim d d' -> dsim (k d x) (k2 d' (m x))) -> forall l d d', dsim d d' -> dsim (fold_left k l d) (fold_left k2 (map m l) d').
  Proof. intros A B k _ m k2 K l. induction l as [|x l IH]; intros d d' D; [exact D|]. cbn [fold_left map]. apply IH. now apply K. Qed.
  Lemma t_fold2 : forall (k : doc -> doc -> doc), (forall d d' x x', dsim d d' -> dsim x x' -> dsim (k d x) (k d' x')) ->
    forall l l', Forall2 dsim l l' -> forall d d', dsim d d' -> dsim (fold_left k l d) (fold_left k l' d').
  Proof. intros k K l l' X. induction X as [|x x' l l' X XS IH]; intros d d' D; [exact D|]. cbn [fold_left]. apply IH. now apply K. Qed.
  Lemma t_concat : forall l l', Forall2 dsim l l' -> dsim (concat_docs l) (concat_docs l').
  Proof. intros l l' X. apply (t_fold2 append); [intros; now apply t_append|exact X|constructor]. Qed.
  Lemma t_intersperse : forall sep sep' l l', dsim sep sep' -> Forall2 dsim l l' -> dsim (intersperse l sep) (intersperse l' sep').
  Proof.
    intros sep sep' l l' S0 X. destruct X as [|x x' l l' X XS]; [constructor|]. cbn [intersperse]. revert x x' X. induction XS as [|y y' l l' Y YS IH]; intros x x' X; [exact X|].
    cbn [fold_left]. apply IH. repeat apply t_append; assumption.
  Qed.
  Lemma t_space : dsim space space.
  Proof. apply t_. now rewrite p_fix; [|repeat constructor]. Qed.
  Lemma t_softline : dsim softline softline.
  Proof. unfold softline, line. apply t_group. constructor; [constructor|exact t_space]. Qed.
  Lemma t_fit : forall w d d', dsim d d' -> forall m pos, fit uwidth w m d' pos = fit uwidth w m d pos.
  Proof.
    intros w d d' D. induction D as [|s|a a' b b' A IA B IB|a a' b b' A IA B IB|a a' A IA|n a a' A IA| |k k' K IK|]; intros m pos; cbn [fit]; try reflexivity; try apply IA.
    - now rewrite p_len.
    - rewrite IA. destruct (fit uwidth w m a pos); try reflexivity. apply IB.
    - destruct m; auto.
    - apply IK.
  Qed.
  Definition csim (a b : cmd) : Prop := fst a = fst b /\ dsim (snd a) (snd b).
  Lemma t_rest : forall w r r', Forall2 csim r r' -> forall pos, fit_rest uwidth w r' pos = fit_rest uwidth w r pos.
  Proof.
    intros w r r' X. induction X as [|[[i m] d] [[i' m'] d'] r r' [E D] X IH]; intros pos; [reflexivity|]. cbn [fit_rest fst snd] in *. rewrite (t_fit w _ _ D). destruct (fit uwidth w Break d pos); auto.
  Qed.
  Definition mout (x : option (str * nat)) : option (str * nat) := option_map (fun y => (F (fst y), snd y)) x.
  Lemma t_best : forall w d d', dsim d d' -> forall ind m r r' pos, Forall2 csim r r' ->
    best uwidth w ind m d' r' pos = mout (best uwidth w ind m d r pos).
  Proof.
    intros w d d' D. induction D as [|s|a a' b b' A IA B IB|a a' b b' A IA B IB|a a' A IA|n a a' A IA| |k k' K IK|]; intros ind m r r' pos R; cbn [best]; try reflexivity.
    - unfold mout. cbn [option_map fst snd]. now rewrite p_len.
    - rewrite (IA ind m ((ind, m, b) :: r) ((ind, m, b') :: r')) by (constructor; [split; [reflexivity|exact B]|exact R]).
      destruct (best uwidth w ind m a ((ind, m, b) :: r) pos) as [[sa p1]|]; [|reflexivity]. unfold mout at 1. cbn [option_map fst snd].
      rewrite (IB ind m r r' p1 R). destruct (best uwidth w ind m b r p1) as [[sb0 p2]|]; [|reflexivity]. unfold mout. cbn [option_map fst snd]. now rewrite map_app.
    - destruct m; auto.
    - destruct m; [|now apply IA]. unfold fitting. rewrite (t_fit w _ _ A). destruct (fit uwidth w Flat a pos); try reflexivity; try (now apply IA). rewrite (t_rest w _ _ R).
      destruct (fit_rest uwidth w r pos0); try reflexivity; now apply IA.
    - now apply IA.
    - unfold mout. cbn [option_map fst snd map]. destruct R as [|[[i m0] d] [[i' m0'] d'] r r' [E D] R]; cbn [fst snd] in *; [|injection E as -> ->]; rewrite (p_lo c_nl eq_refl), (p_rep _ c_sp eq_refl); reflexivity.
    - now apply IK.
  Qed.
  Lemma t_render : forall w d d', dsim d d' -> render uwidth w d' = option_map F (render uwidth w d).
  Proof.
    intros w d d' D. unfold render. rewrite (t_best w _ _ D 0 Break [] [] 0 (Forall2_nil _)). destruct (best uwidth w 0 Break d [] 0) as [[s p]|]; reflexivity.
  Qed.

  (** ** Keys *)
  Lemma p_str : forall a b, str_eqb (F a) (F b) = str_eqb a b.
  Proof.
    intros a b. destruct (str_eqb a b) eqn:E; [apply str_eqb_eq in E as ->; now apply str_eqb_eq|]. destruct (str_eqb (F a) (F b)) eqn:X; [|reflexivity]. apply str_eqb_eq in X.
    assert (Y : a = b). { revert b X E. induction a as [|x a IH]; intros [|y b] X E; try discriminate X; [reflexivity|]. injection X as X1 X2. apply p_inj in X1 as ->. f_equal. apply IH; [exact X2|]. cbn [str_eqb] in E. rewrite N.eqb_refl in E. exact E. }
    rewrite (proj2 (str_eqb_eq a b) Y) in E. discriminate E.
  Qed.
  Lemma p_back : forall s, map g (F s) = s.
  Proof. intros s. rewrite map_map. erewrite map_ext; [apply map_id|]. apply H. Qed.
  Lemma p_back_opt : forall o, option_map (map g) (option_map F o) = o.
  Proof. intros [s|]; [cbn [option_map]; now rewrite p_back|reflexivity]. Qed.
  Lemma p_back_list : forall l, Forall (fun i => spell_inline g (si i) = i) l -> map (spell_inline g) (map si l) = l.
  Proof. intros l X. induction X as [|x l X _ IH]; [reflexivity|]. cbn [map]. now rewrite X, IH. Qed.
  Lemma p_back_inline : forall i, spell_inline g (si i) = i.
  Proof.
    apply inline_ind'; intros; cbn [spell_inline link_destination link_title link_children lr_label lr_text image_destination image_title image_alt];
      rewrite ?p_back, ?p_back_opt, ?p_back_list by assumption; try reflexivity.
    all: try (destruct l; cbn [link_destination link_title link_children lr_label lr_text] in *; rewrite ?p_back, ?p_back_opt, ?p_back_list by assumption; reflexivity).
    all: now destruct im.
  Qed.
  Lemma p_label : forall a b, list_eqb inline_eqb (map si a) (map si b) = list_eqb inline_eqb a b.
  Proof.
    intros a b. destruct (list_eqb inline_eqb a b) eqn:E; [apply label_eqb_eq in E as ->; now apply label_eqb_eq|].
    destruct (list_eqb inline_eqb (map si a) (map si b)) eqn:X; [|reflexivity]. apply label_eqb_eq in X. apply (f_equal (map (spell_inline g))) in X.
    rewrite !p_back_list in X by (apply Forall_forall; intros; apply p_back_inline). subst b. rewrite (proj2 (label_eqb_eq a a) eq_refl) in E. discriminate E.
  Qed.
  Lemma p_get : forall K V (eqb : K -> K -> bool) (mk : K -> K) (mv : V -> V), (forall a b, eqb (mk a) (mk b) = eqb a b) ->
    forall k l, map_get eqb (mk k) (map (fun x => (mk (fst x), mv (snd x))) l) = option_map mv (map_get eqb k l).
  Proof. intros K V eqb mk mv E k l. induction l as [|[k' v] l IH]; [reflexivity|]. cbn [map map_get fst snd]. rewrite E. now destruct (eqb k k'). Qed.
  Lemma p_fixb : forall l, forallb is_ascii l = true -> F l = l.
  Proof. intros l K. apply p_fix. apply Forall_forall. intros c I. apply (proj1 (forallb_forall _ _) K) in I. now apply N.ltb_lt. Qed.
  Ltac lits := repeat match goal with |- context [map f (lit ?x)] => rewrite (p_fixb (lit x)) by (vm_compute; reflexivity) end.
  Lemma t_lit : forall s, forallb is_ascii s = true -> dsim (DText s) (DText s).
  Proof. intros s K. apply t_. now rewrite p_fixb. Qed.
  Lemma Forall2_maps : forall A B C (R : B -> C -> Prop) (k : A -> B) (m : A -> C) l, Forall (fun x => R (k x) (m x)) l -> Forall2 R (map k l) (map m l).
  Proof. intros A B C R k m l X. induction X; cbn [map]; constructor; assumption. Qed.
  Lemma t_map : forall A (k : A -> doc) (m : A -> doc) l, Forall (fun x => dsim (k x) (m x)) l -> dsim (concat_docs (map k l)) (concat_docs (map m l)).
  Proof. intros A k m l X. apply t_concat. now apply Forall2_maps. Qed.

  (** ** HTML *)
  Lemma p_escape : forall s, escape (F s) = F (escape s).
  Proof.
    intros s. unfold escape. induction s as [|c s IH]; [reflexivity|]. cbn [map flat_map]. rewrite map_app, IH. f_equal. unfold escape_char. rewrite !p_eqb by reflexivity.
    repeat match goal with |- context [if ?b then _ else _] => destruct b end; lits; reflexivity.
  Qed.
  Definition asim (a b : str * str) : Prop := fst b = F (fst a) /\ snd b = F (snd a).
  Lemma t_tag : forall name name' l l' d d', name' = F name -> Forall2 asim l l' -> dsim d d' -> dsim (tag name l d) (tag name' l' d').
  Proof.
    intros name name' l l' d d' -> L D. unfold tag. repeat apply t_append; try (apply t_; now lits); try apply s_text; try exact D.
    match goal with |- dsim (fold_left ?k _ _) _ => set (K := k) end.
    assert (X : forall l l', Forall2 asim l l' -> forall a a', dsim a a' -> dsim (fold_left K l a) (fold_left K l' a')).
    { clear - H. intros l l' X. induction X as [|x x' l l' [X1 X2] XS IH]; intros a a' A; [exact A|]. cbn [fold_left]. apply IH. unfold K.
      repeat apply t_append; try exact A; try (apply t_; now lits). all: rewrite X2, p_escape; constructor. }
    apply X; [exact L|constructor].
  Qed.
  Definition sdef (d : link_definition) : link_definition := LinkDefinition (map si (ld_label d)) (F (ld_destination d)) (option_map F (ld_title d)).
  Definition mix (ix : index) : index :=
    Index (map (fun x => (F (fst x), snd x)) (footnote_indices ix)) (map (fun x => (map si (fst x), sdef (snd x))) (link_definitions ix)) (last_footnote_index ix).
  Lemma p_foot : forall k l, map_get str_eqb (F k) (map (fun x : str * N => (F (fst x), snd x)) l) = map_get str_eqb k l.
  Proof. intros k l. etransitivity; [exact (p_get str N str_eqb F (fun x => x) p_str k l)|]. now destruct (map_get str_eqb k l). Qed.
  Lemma p_def : forall k l, map_get (list_eqb inline_eqb) (map si k) (map (fun x => (map si (fst x), sdef (snd x))) l) = option_map sdef (map_get (list_eqb inline_eqb) k l).
  Proof. intros k l. exact (p_get _ _ (list_eqb inline_eqb) (map si) sdef p_label k l). Qed.
  Lemma h_foot : forall ix l, add_footnote (mix ix) (F l) = mix (add_footnote ix l).
  Proof. intros ix l. unfold add_footnote. cbn [mix footnote_indices]. rewrite p_foot. now destruct (map_get str_eqb l (footnote_indices ix)). Qed.
  Lemma h_inlines : forall l ix, get_inlines_indicies (mix ix) (map si l) = mix (get_inlines_indicies ix l).
  Proof.
    unfold get_inlines_indicies. intros l. induction l as [|i l IH]; intros ix; [reflexivity|]. cbn [map fold_left].
    replace (get_inline_indicies (mix ix) (si i)) with (mix (get_inline_indicies ix i)); [apply IH|]. destruct i; try reflexivity. symmetry. apply h_foot.
  Qed.
  Lemma h_fold : forall A B (k : index -> A -> index) (k2 : index -> B -> index) (m : A -> B) l, Forall (fun x => forall ix, k2 (mix ix) (m x) = mix (k ix x)) l ->
    forall ix, fold_left k2 (map m l) (mix ix) = mix (fold_left k l ix).
  Proof. intros A B k k2 m l X. induction X as [|x l X _ IH]; intros ix; [reflexivity|]. cbn [map fold_left]. now rewrite X, IH. Qed.
  Lemma h_block : forall b ix, get_block_indicies (mix ix) (sb b) = mix (get_block_indicies ix b).
  Proof.
    apply (block_ind' (fun b => forall ix, get_block_indicies (mix ix) (sb b) = mix (get_block_indicies ix b))); intros; cbn [spell_block get_block_indicies h_content l_items li_blocks fd_blocks ga_blocks t_rows]; try reflexivity.
    - apply h_inlines.
    - apply h_inlines.
    - now apply h_fold.
    - apply (h_fold _ _ (fun ix it => fold_left get_block_indicies (li_blocks it) ix)). revert H0. apply Forall_impl. intros it X i. cbn [li_blocks]. now apply h_fold.
    - cbn [ld_label]. rewrite <- h_inlines. reflexivity.
    - apply (h_fold _ _ (fun ix row => fold_left get_inlines_indicies row ix)). apply Forall_forall. intros r _ i. apply h_fold. apply Forall_forall. intros c _ j. apply h_inlines.
    - now apply h_fold.
    - now apply h_fold.
  Qed.
  Lemma h_doc : forall d, get_indicies (spell f d) = mix (get_indicies d).
  Proof. intros d. unfold get_indicies. cbn [spell d_blocks]. change index_new with (mix index_new) at 1. apply h_fold. apply Forall_forall. intros b _. apply h_block. Qed.
  Let hconf := spell_prefix f.
  Section Html.
    Variables st : html_state.
    Let st' := HtmlState (hconf (hs_config st)) (mix (hs_index st)).
    Lemma h_title : forall t, Forall2 asim (title_attr t) (title_attr (option_map F t)).
    Proof. intros [t|]; [|constructor]. cbn [option_map title_attr]. constructor; [|constructor]. split; cbn [fst snd]; [now lits|apply p_escape]. Qed.
    Ltac attr := repeat first [apply h_title | apply Forall2_cons | apply Forall2_nil | (split; cbn [fst snd]; [now lits|first [apply p_escape|now lits]])].
    Lemma h_inline : forall i, dsim (inline_to_doc st i) (inline_to_doc st' (si i)).
    Proof.
      apply inline_ind'; intros; cbn [spell_inline inline_to_doc link_destination link_title link_children lr_label lr_text image_destination image_title image_alt];
        rewrite ?map_map.
      - rewrite p_escape. constructor.
      - apply t_tag; [now lits|constructor|constructor].
      - apply t_tag; [now lits|constructor|rewrite p_escape; constructor].
      - constructor.
      - apply t_tag; [now lits|attr|now apply t_map].
      - unfold get_link_definition, st'. cbn [hs_index mix link_definitions]. rewrite p_def. destruct (map_get (list_eqb inline_eqb) l (link_definitions (hs_index st))) as [x|]; [|constructor].
        cbn [option_map sdef ld_destination ld_title]. apply t_tag; [now lits|attr|now apply t_map].
      - apply t_tag; [now lits|attr|constructor].
      - apply t_tag; [now lits|constructor|now apply t_map].
      - apply t_tag; [now lits|constructor|now apply t_map].
      - apply t_tag; [now lits|constructor|now apply t_map].
      - apply t_tag; [now lits|attr|rewrite p_escape; constructor].
      - unfold get_footnote_index, st'. cbn [hs_index mix footnote_indices]. rewrite p_foot. destruct (map_get str_eqb s (footnote_indices (hs_index st))) as [x|]; [|constructor].
        apply t_tag; [now lits| |apply t_; rewrite !map_app, p_dec; now lits]. constructor; [split; cbn [fst snd]; now lits|]. constructor; [|constructor]. split; cbn [fst snd]; [now lits|].
        unfold hconf, spell_prefix; cbn [hs_config hc_anchor_prefix]. rewrite <- p_escape, !map_app, p_dec. now lits.
      - constructor.
    Qed.
    Lemma h_inls : forall l, dsim (inlines_to_doc st l) (inlines_to_doc st' (map si l)).
    Proof. intros l. unfold inlines_to_doc. rewrite map_map. apply t_map. apply Forall_forall. intros i _. apply h_inline. Qed.
    Lemma h_cells : forall t al row, forallb is_ascii t = true -> forall i d d', dsim d d' -> dsim (cells_to_doc st t al i row d) (cells_to_doc st' t al i (map (map si) row) d').
    Proof.
      intros t al row T. induction row as [|c row IH]; intros i d d' D; [exact D|]. cbn [cells_to_doc map]. apply IH. apply t_append; [exact D|].
      apply t_tag; [now rewrite p_fixb| |apply h_inls]. constructor; [|constructor]. split; cbn [fst snd]; [now lits|]. rewrite p_fixb; [reflexivity|]. destruct (nth_error al i) as [[]|]; reflexivity.
    Qed.
    Lemma h_row : forall row t al, forallb is_ascii t = true -> dsim (table_row_to_doc st row t al) (table_row_to_doc st' (map (map si) row) t al).
    Proof. intros row t al T. unfold table_row_to_doc. apply t_tag; [now lits|constructor|]. apply h_cells; [exact T|constructor]. Qed.
    Lemma h_table : forall t, dsim (table_to_doc st t) (table_to_doc st' (Table (map (map (map si)) (t_rows t)) (t_alignments t))).
    Proof.
      intros [rows al]. unfold table_to_doc. cbn [t_rows t_alignments]. destruct rows as [|r rows]; [constructor|]. cbn [map].
      apply t_tag; [now lits|constructor|]. apply t_append; (apply t_tag; [now lits|constructor|]); [now apply h_row|].
      apply (t_fold _ _ _ (fun acc row => append acc (table_row_to_doc st row (lit "td") al)) (map (map si))); [|constructor]. intros d d' x D. apply t_append; [exact D|now apply h_row].
    Qed.
    Lemma h_blk : forall b, dsim (block_to_doc st b) (block_to_doc st' (sb b)).
    Proof.
      apply (block_ind' (fun b => dsim (block_to_doc st b) (block_to_doc st' (sb b)))); intros; cbn [spell_block block_to_doc h_content h_kind l_items l_kind li_blocks li_task fd_blocks fd_label ga_blocks ga_type t_rows]; rewrite ?map_map.
      - apply t_tag; [now lits|constructor|apply h_inls].
      - apply t_tag; [|constructor|apply h_inls]. rewrite p_fixb; [reflexivity|]. destruct h as [[n|[]] ?]; cbn [h_kind heading_tag]; try reflexivity. repeat match goal with |- context [if ?b then _ else _] => destruct b end; reflexivity.
      - apply t_tag; [now lits|constructor|constructor].
      - apply t_tag; [now lits|constructor|now apply t_map].
      - unfold list_tag. destruct k as [n|[]]; (apply t_tag; [now lits| |]).
        1: constructor; [|constructor]; split; cbn [fst snd]; [now lits|now rewrite p_dec].
        2,4,6: attr.
        all: apply t_map; revert H0; apply Forall_impl; intros it X; (apply t_tag; [now lits|constructor|]); cbn [li_blocks li_task]; rewrite map_map; (apply t_append; [|now apply t_map]).
        all: destruct (li_task it) as [[]|]; [| |constructor]; (apply t_tag; [now lits|attr|apply t_; now lits]).
      - unfold code_block_to_doc. repeat (apply t_tag; [now lits|constructor|]). apply t_. destruct c as [[|i] s]; cbn [spell_code cb_literal]; apply p_escape.
      - constructor.
      - constructor.
      - apply h_table.
      - unfold get_footnote_index, st'. cbn [hs_index mix footnote_indices]. rewrite p_foot. destruct (map_get str_eqb l (footnote_indices (hs_index st))) as [x|]; [|constructor].
        apply t_tag; [now lits|attr|]. apply t_append; (apply t_tag; [now lits|attr|]); [apply t_; rewrite map_app, p_dec; now lits|now apply t_map].
      - apply t_tag; [now lits| |].
        + constructor; [|constructor]. split; cbn [fst snd]; [now lits|]. destruct t; cbn [spell_alert css_classes]; now lits.
        + apply t_append; [|now apply t_map]. apply t_tag; [now lits|attr|]. apply t_append; [apply t_; rewrite p_fixb; [now destruct t|destruct t; vm_compute; reflexivity]|]. apply t_. destruct t; cbn [spell_alert html_title]; now lits.
      - constructor.
    Qed.
  End Html.
  Lemma html_alike : forall d c, render_html uwidth (spell f d) (hconf c) = option_map F (render_html uwidth d c).
  Proof.
    intros d c. unfold render_html. unfold hconf; cbn [spell_prefix hc_width]. apply t_render. unfold blocks_to_doc. cbn [spell d_blocks]. rewrite map_map. apply t_map. apply Forall_forall. intros b _.
    unfold html_state_new. rewrite h_doc. apply (h_blk (HtmlState c (get_indicies d)) b).
  Qed.
  (** ** LaTeX *)
  Lemma p_latex : forall s, escape_latex (F s) = F (escape_latex s).
  Proof.
    intros s. unfold escape_latex. induction s as [|c s IH]; [reflexivity|]. cbn [map flat_map]. rewrite map_app, IH. f_equal. unfold escape_latex_char. rewrite !p_eqb by reflexivity.
    repeat match goal with |- context [if ?b then _ else _] => destruct b end; lits; reflexivity.
  Qed.
  Lemma t_env : forall name o d d', forallb is_ascii name = true -> dsim d d' -> dsim (environment name o d) (environment name (option_map F o) d').
  Proof.
    intros name o d d' N D. unfold environment. repeat apply t_append; try constructor; try exact D.
    - destruct o; cbn [option_map]; apply t_; rewrite !map_app, (p_fixb name N); now lits.
    - apply t_. rewrite !map_app, (p_fixb name N). now lits.
  Qed.
  Lemma t_command : forall name d d', forallb is_ascii name = true -> dsim d d' -> dsim (command name d) (command name d').
  Proof.
    intros name d d' N D. unfold command. repeat apply t_append; try exact D; apply t_; rewrite ?map_app, ?(p_fixb name N); now lits.
  Qed.
  Definition mlx (ix : lindex) : lindex :=
    LIndex (map (fun x => (F (fst x), snd x)) (li_footnotes ix)) (map (fun x => (map si (fst x), sdef (snd x))) (li_definitions ix)) (li_counter ix).
  Lemma l_fold : forall A B (k : lindex -> A -> lindex) (k2 : lindex -> B -> lindex) (m : A -> B) l, Forall (fun x => forall ix, k2 (mlx ix) (m x) = mlx (k ix x)) l ->
    forall ix, fold_left k2 (map m l) (mlx ix) = mlx (fold_left k l ix).
  Proof. intros A B k k2 m l X. induction X as [|x l X _ IH]; intros ix; [reflexivity|]. cbn [map fold_left]. now rewrite X, IH. Qed.
  Lemma l_block : forall b ix, process_block (mlx ix) (sb b) = mlx (process_block ix b).
  Proof.
    apply (block_ind' (fun b => forall ix, process_block (mlx ix) (sb b) = mlx (process_block ix b))); intros; cbn [spell_block process_block l_items li_blocks fd_label ga_blocks ld_label]; try reflexivity.
    - now apply l_fold.
    - apply (l_fold _ _ (fun ix it => fold_left process_block (li_blocks it) ix)). revert H0. apply Forall_impl. intros it X i. cbn [li_blocks]. now apply l_fold.
    - now apply l_fold.
  Qed.
  Lemma l_doc : forall d, get_indices (spell f d) = mlx (get_indices d).
  Proof. intros d. unfold get_indices. cbn [spell d_blocks]. change (LIndex [] [] 1) with (mlx (LIndex [] [] 1)) at 1. apply l_fold. apply Forall_forall. intros b _. apply l_block. Qed.
  Lemma p_nl : forall s, nl_to_sp (F s) = F (nl_to_sp s).
  Proof. intros s. unfold nl_to_sp. rewrite !map_map. apply map_ext. intros c. rewrite p_eqb by reflexivity. destruct (N.eqb c c_nl); [symmetry; now apply p_lo|reflexivity]. Qed.
  Lemma p_trim : forall s, trim (F s) = F (trim s).
  Proof.
    assert (A : forall s, trim_start (F s) = F (trim_start s)). { unfold trim_start. intros s. induction s as [|c s IH]; [reflexivity|]. cbn [map trim_start_by]. rewrite (rs_space _ _ _ _ _ H). now destruct (is_whitespace c). }
    assert (B : forall s, trim_end (F s) = F (trim_end s)). { unfold trim_end. intros s. induction s as [|c s IH]; [reflexivity|]. cbn [map trim_end_by]. rewrite IH, (rs_space _ _ _ _ _ H). destruct (trim_end_by is_whitespace s); [now destruct (is_whitespace c)|reflexivity]. }
    intros s. unfold trim. now rewrite A, B.
  Qed.
  Lemma p_split : forall s, split_with_spaces (F s) = map (option_map F) (split_with_spaces s).
  Proof.
    assert (A : forall s cur r, split_spaces_go (F s) (option_map F cur) (map (option_map F) r) = map (option_map F) (split_spaces_go s cur r)).
    { intros s. induction s as [|c s IH]; intros cur r; cbn [map split_spaces_go].
      - destruct cur; [cbn [option_map map]; now rewrite map_rev|reflexivity].
      - rewrite (rs_space _ _ _ _ _ H). destruct (is_whitespace c).
        + destruct cur as [w|]; cbn [option_map].
          * rewrite <- map_rev. exact (IH None (None :: Some (rev w) :: r)).
          * destruct r as [|[x|] r]; [exact (IH None [None])|exact (IH None (None :: Some x :: r))|exact (IH None (None :: r))].
        + rewrite <- IH. now destruct cur. }
    intros s. unfold split_with_spaces. rewrite map_rev. f_equal. exact (A s None []).
  Qed.
  Lemma t_join : forall l l', Forall2 dsim l l' -> dsim (join_blocks l) (join_blocks l').
  Proof.
    intros l l' X. destruct X as [|x x' l l' X XS]; [constructor|]. cbn [join_blocks]. assert (K : dsim (append DNil x) (append DNil x')) by (apply t_append; [constructor|exact X]).
    revert K. generalize (append DNil x) (append DNil x'). clear x x' X. induction XS as [|y y' l l' Y YS IH]; intros x x' X; [exact X|]. cbn [fold_left]. apply IH. repeat apply t_append; try assumption; constructor.
  Qed.
  Section Latex.
    Variables st : latex_state.
    Let st' := LatexState (ls_config st) (mlx (ls_index st)).
    Lemma l_text : forall s, dsim (ltext_to_doc s) (ltext_to_doc (F s)).
    Proof.
      intros s. unfold ltext_to_doc. rewrite p_nl, p_trim. destruct (trim (nl_to_sp s)); cbn [map]; [rewrite p_latex; constructor|].
      rewrite p_split, map_map. apply t_map. apply Forall_forall. intros [w|] _; cbn [option_map]; [rewrite p_latex; constructor|exact t_softline].
    Qed.
    Ltac pc := repeat first
      [ (apply t_command; [reflexivity|]) | apply t_append | apply t_map; assumption | apply s_nil | apply s_line
      | apply l_text | (apply t_; solve [now lits | apply p_latex]) ].
    Lemma l_inline : forall i, dsim (linline_to_doc st i) (linline_to_doc st' (si i)).
    Proof.
      apply inline_ind'; intros; cbn [spell_inline linline_to_doc link_destination link_title link_children lr_label lr_text image_destination image_title image_alt];
        rewrite ?map_map; try (solve [pc]).
      - destruct t; cbn [option_map]; pc.
      - unfold l_link_definition, st'. cbn [ls_index mlx li_definitions]. rewrite p_def. destruct (map_get (list_eqb inline_eqb) l (li_definitions (ls_index st))) as [x|]; cbn [option_map sdef ld_destination]; pc.
      - destruct (image_alt im) as [|c a] eqn:E; cbn [map]; [pc|]. apply t_append; [pc|]. apply t_command; [reflexivity|]. apply t_. exact (p_latex (c :: a)).
      - unfold l_footnote_index, st'. cbn [ls_index mlx li_footnotes]. rewrite p_foot. destruct (map_get str_eqb s (li_footnotes (ls_index st))) as [x|]; pc. apply t_. rewrite !map_app, p_dec. now lits.
    Qed.
    Lemma l_inls : forall l, dsim (linlines_to_doc st l) (linlines_to_doc st' (map si l)).
    Proof. intros l. unfold linlines_to_doc. rewrite map_map. apply t_map. apply Forall_forall. intros i _. apply l_inline. Qed.
    Lemma l_code : forall c, dsim (render_code_block st c) (render_code_block st' (spell_code f c)).
    Proof.
      intros c. unfold render_code_block, st'. cbn [ls_config]. destruct (lc_code_block_style (ls_config st)).
      - replace (@None str) with (option_map F None) at 2 by reflexivity. apply t_env; [reflexivity|]. destruct c as [[|i] s]; cbn [spell_code cb_literal]; constructor.
      - destruct c as [[|[i|]] s]; cbn [spell_code cb_kind cb_literal option_map].
        + apply (t_env _ None); [reflexivity|constructor].
        + replace (Some (lit "language=" ++ F i)) with (option_map F (Some (lit "language=" ++ i))) by (cbn [option_map]; rewrite map_app; now lits). apply t_env; [reflexivity|constructor].
        + apply (t_env _ None); [reflexivity|constructor].
      - repeat apply t_append; try apply s_line; try (apply t_; now lits); destruct c as [[|[i|]] s]; cbn [spell_code cb_kind cb_literal option_map]; apply t_; rewrite ?map_app; now lits.
    Qed.
    Lemma l_row : forall row, dsim (render_table_row st row) (render_table_row st' (map (map si) row)).
    Proof.
      intros row. unfold render_table_row. apply t_append; [|apply t_; now lits]. destruct row as [|c row]; [constructor|]. cbn [map].
      apply (t_fold _ _ _ (fun acc cell => append (append acc (DText (lit " & "))) (linlines_to_doc st cell)) (map si)); [|apply t_append; [constructor|apply l_inls]].
      intros d d' x D. repeat apply t_append; [exact D|apply t_; now lits|apply l_inls].
    Qed.
    Lemma l_table : forall t, dsim (render_table st t) (render_table st' (Table (map (map (map si)) (t_rows t)) (t_alignments t))).
    Proof.
      intros [rows al]. unfold render_table, st'. cbn [t_rows t_alignments ls_config].
      assert (SP : F (create_column_spec al) = create_column_spec al). { apply p_fixb. unfold create_column_spec. induction al as [|[] al IH]; [reflexivity|..]; cbn [flat_map app lit]; exact IH. }
      assert (HD : forall rule d d', forallb is_ascii rule = true -> dsim d d' -> dsim
        (match rows with [] => d | h :: _ => append (append (append (append d (render_table_row st h)) DHardline) (DText rule)) DHardline end)
        (match map (map (map si)) rows with [] => d' | h :: _ => append (append (append (append d' (render_table_row st' h)) DHardline) (DText rule)) DHardline end)).
      { intros rule d d' R D. destruct rows as [|h rows]; [exact D|]. cbn [map]. repeat first [apply l_row|assumption|apply s_line|apply t_append]. now apply t_lit. }
      assert (DT : forall tl0 d d', dsim tl0 tl0 -> dsim d d' -> dsim
        (fold_left (fun acc row => append (append (append acc (render_table_row st row)) tl0) DHardline) (skipn 1 rows) d)
        (fold_left (fun acc row => append (append (append acc (render_table_row st' row)) tl0) DHardline) (skipn 1 (map (map (map si)) rows)) d')).
      { intros tl0 d d' T D. rewrite skipn_map. apply (t_fold _ _ _ (fun acc row => append (append (append acc (render_table_row st row)) tl0) DHardline) (map (map si))); [|exact D].
        intros e e' x E. repeat first [apply l_row|assumption|apply s_line|apply t_append]. }
      destruct (lc_table_style (ls_config st)).
      - replace (Some (create_column_spec al)) with (option_map F (Some (create_column_spec al))) at 2 by (cbn [option_map]; now rewrite SP). apply t_env; [reflexivity|]. apply DT; [constructor|]. apply HD; [reflexivity|constructor].
      - match goal with |- dsim (environment _ (Some ?o) _) _ => replace (Some o) with (option_map F (Some o)) at 2 by (cbn [option_map]; rewrite !map_app, SP; now lits) end.
        apply t_env; [reflexivity|]. apply DT; [apply t_; now lits|]. apply HD; [reflexivity|constructor].
      - replace (Some (create_column_spec al)) with (option_map F (Some (create_column_spec al))) at 2 by (cbn [option_map]; now rewrite SP). apply t_env; [reflexivity|]. apply t_append; [|apply t_; now lits].
        apply DT; [constructor|]. apply HD; [reflexivity|]. apply t_append; [apply t_; now lits|constructor].
    Qed.
    Lemma l_children : forall bs, Forall (fun b => dsim (lblock_to_doc st b) (lblock_to_doc st' (sb b))) bs ->
      dsim (join_blocks (map (lblock_to_doc st) bs)) (join_blocks (map (lblock_to_doc st') (map sb bs))).
    Proof. intros bs X. apply t_join. rewrite map_map. now apply Forall2_maps. Qed.
    Lemma l_blk : forall b, dsim (lblock_to_doc st b) (lblock_to_doc st' (sb b)).
    Proof.
      apply (block_ind' (fun b => dsim (lblock_to_doc st b) (lblock_to_doc st' (sb b)))); intros; cbn [spell_block lblock_to_doc h_content h_kind l_items l_kind li_blocks li_task fd_blocks fd_label ga_blocks ga_type t_rows].
      - apply l_inls.
      - apply t_command; [|apply l_inls]. destruct h as [[n|[]] ?]; cbn [h_kind section_name]; try reflexivity. repeat match goal with |- context [if ?b then _ else _] => destruct b end; reflexivity.
      - apply t_command; [reflexivity|constructor].
      - apply (t_env _ None); [reflexivity|now apply l_children].
      - apply (t_env _ None); [now destruct k|]. rewrite map_map. apply t_map. revert H0. apply Forall_impl. intros it X. cbn [li_blocks li_task]. repeat apply t_append; [apply t_; now lits| |now apply l_children|constructor].
        destruct (li_task it) as [[]|]; cbn [checkbox]; [apply t_; now lits|apply t_; now lits|constructor].
      - apply l_code.
      - rewrite p_latex. constructor.
      - constructor.
      - apply l_table.
      - unfold l_footnote_index, st' at 1. cbn [ls_index mlx li_footnotes]. rewrite p_foot. destruct (map_get str_eqb l (li_footnotes (ls_index st))) as [x|]; [|constructor].
        apply t_command; [reflexivity|]. apply t_append; [apply t_; rewrite !map_app, p_dec; now lits|now apply l_children].
      - apply t_command; [reflexivity|]. apply t_append; [|now apply l_children]. apply t_. rewrite map_app. destruct t; cbn [spell_alert latex_alert_type]; now lits.
      - constructor.
    Qed.
  End Latex.
  Lemma latex_alike : forall d c, render_latex uwidth (spell f d) c = option_map F (render_latex uwidth d c).
  Proof.
    intros d c. unfold render_latex. apply t_render. unfold latex_state_new. rewrite l_doc. cbn [spell d_blocks]. apply (l_children (LatexState c (get_indices d))). apply Forall_forall. intros b _. apply l_blk.
  Qed.
  (** ** Markdown *)
  Lemma p_cls : forall (p : char -> bool) b, (forall c, (128 <= c)%N -> p c = b) -> forall c, p (f c) = p c.
  Proof. intros p b K c. destruct (N.lt_ge_cases c 128) as [X|X]; [now rewrite (p_lo c X)|]. rewrite (K c X). apply K. now apply p_hi. Qed.
  Lemma p_digit : forall c, regex_digit udigit (f c) = regex_digit udigit c.
  Proof.
    intros c. unfold regex_digit. rewrite p_ascii, (rs_digit _ _ _ _ _ H). f_equal. apply (p_cls is_digit false). intros x K. unfold is_digit. unfold char in *. lia.
  Qed.
  Lemma p_dot : forall s, digits_dot udigit (F s) = digits_dot udigit s.
  Proof.
    intros s. induction s as [|c [|d s] IH]; [reflexivity|cbn [map digits_dot]; now apply p_eqb|]. cbn [map] in *. cbn [digits_dot] in *. rewrite p_digit. f_equal. exact IH.
  Qed.
  Lemma p_all : forall c s, (c < 128)%N -> forallb (N.eqb c) (F s) = forallb (N.eqb c) s.
  Proof. intros c s L. induction s as [|x s IH]; [reflexivity|]. cbn [map forallb]. rewrite IH. f_equal. rewrite !(N.eqb_sym c). now apply p_eqb. Qed.
  Lemma p_starts : forall a s, Forall (fun c => (c < 128)%N) a -> starts_with a (F s) = starts_with a s.
  Proof.
    intros a s L. revert s. induction L as [|x a X L IH]; intros [|c s]; try reflexivity. cbn [map starts_with]. rewrite IH. f_equal. rewrite !(N.eqb_sym x). now apply p_eqb.
  Qed.
  Lemma p_bytes : forall s, (byte_len (F s) =? 1) = (byte_len s =? 1).
  Proof.
    assert (P : forall c, 1 <= utf8_len c) by (intros c; unfold utf8_len; repeat match goal with |- context [if ?b then _ else _] => destruct b end; lia).
    assert (Q : forall c, (utf8_len (f c) =? 1) = (utf8_len c =? 1)).
    { intros c. destruct (N.lt_ge_cases c 128) as [X|X]; [now rewrite (p_lo c X)|]. pose proof (p_hi c X) as Y.
      assert (Z0 : forall d, (128 <= d)%N -> utf8_len d =? 1 = false). { intros d K. unfold utf8_len. repeat match goal with |- context [if ?b then _ else _] => destruct b eqn:? end; try reflexivity. unfold char in *. lia. }
      now rewrite (Z0 _ X), (Z0 _ Y). }
    intros [|c [|d s]]; [reflexivity| |].
    - cbn [map byte_len fold_right]. rewrite !Nat.add_0_r. apply Q.
    - cbn [map byte_len fold_right]. pose proof (P c). pose proof (P d). pose proof (P (f c)). pose proof (P (f d)).
      match goal with |- (?a =? 1) = (?b =? 1) => assert (A : 2 <= a) by lia; assert (B : 2 <= b) by lia; revert A B; generalize a b end. intros [|[|a]] [|[|b]] A B; try lia; reflexivity.
  Qed.
  Lemma p_syntax : forall w, is_markdown_syntax_at_line_start udigit (F w) = is_markdown_syntax_at_line_start udigit w.
  Proof.
    intros w. unfold is_markdown_syntax_at_line_start. destruct w as [|c w]; [reflexivity|]. change (F (c :: w)) with (f c :: F w) at 1. cbv iota.
    rewrite p_bytes, !p_eqb by reflexivity. destruct (byte_len (c :: w) =? 1).
    - f_equal. change (lit "-*+#>|") with [ch "-"; ch "*"; ch "+"; ch "#"; ch ">"; ch "|"]. cbn [existsb]. now rewrite !p_eqb by reflexivity.
    - rewrite p_all by reflexivity. unfold code_fence_regex, horizontal_rule_regex, all_at_least. rewrite !p_starts by (repeat constructor). rewrite !p_all by reflexivity. rewrite !map_length.
      unfold ordered_list_regex. cbn [map]. now rewrite p_digit, p_dot.
  Qed.
  Lemma p_next : forall l, find_next_word (map (option_map F) l) = option_map F (find_next_word l).
  Proof. intros l. induction l as [|[w|] l IH]; [reflexivity|reflexivity|exact IH]. Qed.
  Lemma m_safe : forall l d d', dsim d d' -> dsim (safe_text_go udigit l d) (safe_text_go udigit (map (option_map F) l) d').
  Proof.
    intros l. induction l as [|[w|] l IH]; intros d d' D; cbn [map option_map safe_text_go]; [exact D|apply IH; apply t_append; [exact D|constructor]|].
    apply IH. apply t_append; [exact D|]. rewrite p_next. destruct (find_next_word l) as [w|]; cbn [option_map]; [|exact t_softline].
    unfold is_safe_line_break_before. rewrite p_syntax. destruct (negb _); [exact t_softline|exact t_space].
  Qed.
  Ltac mc := repeat first
    [ apply t_append | apply t_map; assumption | apply s_nil | apply s_line | apply s_text | exact t_space
    | (apply t_; rewrite ?map_app; solve [now lits]) ].
  Lemma m_inline : forall nl i, dsim (md_inline udigit nl i) (md_inline udigit nl (si i)).
  Proof.
    intros nl. apply inline_ind'; intros; cbn [spell_inline md_inline link_destination link_title link_children lr_label lr_text image_destination image_title image_alt]; rewrite ?map_map; try (solve [mc]).
    - rewrite p_nl, p_split. destruct nl; [apply m_safe; constructor|]. rewrite map_map. apply t_map. apply Forall_forall. intros [w|] _; cbn [option_map]; [constructor|exact t_space].
    - apply t_. now rewrite p_fixb.
    - destruct t; cbn [option_map]; mc.
    - rewrite p_label. destruct (list_eqb inline_eqb l t); mc.
    - repeat apply t_append; try (apply t_; now lits); try apply s_text. apply t_. destruct (image_title im); cbn [option_map]; [rewrite !map_app; now lits|reflexivity].
  Qed.
  Lemma m_inls : forall nl l, dsim (md_inlines udigit nl l) (md_inlines udigit nl (map si l)).
  Proof. intros nl l. unfold md_inlines. rewrite map_map. apply t_map. apply Forall_forall. intros i _. apply m_inline. Qed.
  Lemma m_heading : forall k l, dsim (md_heading udigit (Heading k l)) (md_heading udigit (Heading k (map si l))).
  Proof.
    intros [n|[]] l; unfold md_heading; cbn [h_kind h_content]; repeat first [apply t_append|apply m_inls|apply s_line|exact t_space|(apply t_; solve [now lits])]. apply t_. now rewrite p_rep.
  Qed.
  (** *** Tables *)
  Variable big : nat.
  Lemma m_cell : forall c, render_cell uwidth udigit big (map si c) = option_map F (render_cell uwidth udigit big c).
  Proof. intros c. unfold render_cell. apply t_render. apply m_inls. Qed.
  Lemma m_all : forall A B C (k : A -> option B) (k2 : C -> option B) (m : A -> C) (mb : B -> B), (forall x, k2 (m x) = option_map mb (k x)) ->
    forall l, all_some (map k2 (map m l)) = option_map (map mb) (all_some (map k l)).
  Proof. intros A B C k k2 m mb K l. induction l as [|x l IH]; [reflexivity|]. cbn [map all_some]. rewrite K, IH. destruct (k x); [|reflexivity]. cbn [option_map]. now destruct (all_some (map k l)). Qed.
  Lemma m_content : forall rows al, table_content uwidth udigit big (Table (map (map (map si)) rows) al) = option_map (map (map F)) (table_content uwidth udigit big (Table rows al)).
  Proof. intros rows al. unfold table_content. cbn [t_rows]. apply m_all. intros row. apply m_all. apply m_cell. Qed.
  Lemma m_col : forall c i, column_content_width (map (map F) c) i = column_content_width c i.
  Proof.
    intros c i. unfold column_content_width. generalize 0. induction c as [|r c IH]; intros k; [reflexivity|]. cbn [map fold_left]. rewrite nth_error_map. destruct (nth_error r i); cbn [option_map]; rewrite ?map_length; apply IH.
  Qed.
  Lemma m_widths : forall c al, columns_width (map (map F) c) al = columns_width c al.
  Proof.
    intros c al. unfold columns_width. destruct c as [|r c]; [reflexivity|]. change (hd [] (map (map F) (r :: c))) with (map F r). change (hd [] (r :: c)) with r. rewrite map_length.
    apply map_ext. intros i. unfold column_width. now rewrite m_col.
  Qed.
  Lemma m_cell_doc : forall c w al, dsim (cell_to_doc c w al) (cell_to_doc (F c) w al).
  Proof.
    intros c w al. unfold cell_to_doc. rewrite map_length. destruct (w <? List.length c); [constructor|]. destruct al; apply t_; rewrite ?map_app, ?p_rep by reflexivity; reflexivity.
  Qed.
  Lemma m_go : forall A B (k : nat -> A -> doc) (k2 : nat -> B -> doc) (m : A -> B), (forall i x, dsim (k i x) (k2 i (m x))) ->
    forall l i d d', dsim d d' -> dsim (row_go k i l d) (row_go k2 i (map m l) d').
  Proof.
    intros A B k k2 m K l. induction l as [|x l IH]; intros i d d' D; [exact D|]. cbn [map row_go]. apply IH. apply t_append; [|apply K]. destruct (0 <? i); [apply t_append; [exact D|apply t_; now lits]|exact D].
  Qed.
  Lemma m_row : forall r ws al, dsim (row_to_doc r ws al) (row_to_doc (map F r) ws al).
  Proof. intros r ws al. unfold row_to_doc. apply t_append; [|apply t_; now lits]. apply m_go; [intros; apply m_cell_doc|apply t_; now lits]. Qed.
  Lemma m_al : forall al w, dsim (alignment_to_doc al w) (alignment_to_doc al w).
  Proof. intros al w. unfold alignment_to_doc. destruct al; repeat apply t_append; apply t_; first [now rewrite p_rep|now lits]. Qed.
  Lemma m_alrow : forall als ws, dsim (alignments_row_to_doc als ws) (alignments_row_to_doc als ws).
  Proof.
    intros als ws. unfold alignments_row_to_doc. apply t_append; [|apply t_; now lits]. rewrite <- (map_id als) at 2. apply m_go; [intros; apply m_al|apply t_; now lits].
  Qed.
  Lemma m_table : forall rows al, dsim (md_table uwidth udigit big (Table rows al)) (md_table uwidth udigit big (Table (map (map (map si)) rows) al)).
  Proof.
    intros rows al. unfold md_table. rewrite m_content. cbn [t_rows t_alignments]. destruct rows as [|r rows]; [constructor|]. cbn [map].
    destruct (table_content uwidth udigit big (Table (r :: rows) al)) as [c|]; [|constructor]. cbn [option_map]. cbv zeta. rewrite m_widths.
    set (ws := columns_width c al).
    match goal with |- dsim (match render _ _ ?a with _ => _ end) (match render _ _ ?b with _ => _ end) => assert (D : dsim a b) end.
    { apply t_intersperse; [constructor|]. constructor; [destruct c; [exact (m_row [] ws al)|apply m_row]|]. constructor; [apply m_alrow|].
      destruct c as [|x c]; [constructor|]. cbn [map tl]. rewrite map_map. apply Forall2_maps. apply Forall_forall. intros y _. apply m_row. }
    rewrite (t_render big _ _ D). destruct (render uwidth big _); constructor.
  Qed.
  (** *** Blocks *)
  Lemma p_lines_go : forall s cur, lines_go (F cur) (F s) = map F (lines_go cur s).
  Proof.
    intros s. induction s as [|c s IH]; intros cur; cbn [map lines_go].
    - destruct cur as [|d cur]; [reflexivity|]. exact (f_equal (fun x => [x]) (eq_sym (map_rev f (d :: cur)))).
    - rewrite p_eqb by reflexivity. destruct (N.eqb c c_nl); [|exact (IH (c :: cur))]. cbn [map]. f_equal; [|exact (IH [])]. destruct cur as [|d cur]; [reflexivity|]. cbn [map]. rewrite p_eqb by reflexivity.
      destruct (N.eqb d c_cr); [now rewrite map_rev|]. exact (eq_sym (map_rev f (d :: cur))).
  Qed.
  Lemma p_lines : forall s, lines (F s) = map F (lines s).
  Proof. intros s. exact (p_lines_go s []). Qed.
  Lemma p_alert_line : forall s, alert_line (F s) = F (alert_line s).
  Proof.
    intros [|c s]; [symmetry; apply p_fixb; reflexivity|]. unfold alert_line. change (F (c :: s)) with (f c :: F s) at 1. cbv iota.
    replace (forallb is_whitespace (F (c :: s))) with (forallb is_whitespace (c :: s)).
    - destruct (forallb is_whitespace (c :: s)); [now lits|]. rewrite map_app. now lits.
    - generalize (c :: s). intros l. induction l as [|x l IH]; [reflexivity|]. cbn [map forallb]. now rewrite IH, (rs_space _ _ _ _ _ H).
  Qed.
  Lemma p_upper : forall s, uppercase upper (F s) = F (uppercase upper s).
  Proof.
    intros s. unfold uppercase. induction s as [|c s IH]; [reflexivity|]. cbn [map flat_map]. rewrite map_app, IH. f_equal. rewrite p_ascii. destruct (is_ascii c) eqn:E.
    - unfold is_ascii in E. rewrite (p_lo c) by lia. cbn [map]. rewrite p_lo; [reflexivity|]. unfold to_upper_ascii. unfold char in *. destruct (is_lower c) eqn:L; unfold is_lower in *; lia.
    - unfold is_ascii in E. apply (rs_upper _ _ _ _ _ H). lia.
  Qed.
  Lemma p_alert : forall t, as_markdown_str (spell_alert f t) = F (as_markdown_str t).
  Proof. intros []; cbn [spell_alert as_markdown_str]; now lits. Qed.
  Lemma m_texts : forall l, Forall2 dsim (map DText l) (map DText (map F l)).
  Proof. intros l. rewrite map_map. apply Forall2_maps. apply Forall_forall. intros s _. constructor. Qed.
  Lemma m_alert : forall t h d d', dsim d d' -> dsim (md_alert uwidth upper t h d) (md_alert uwidth upper (spell_alert f t) h d').
  Proof.
    intros t h d d' D. unfold md_alert. rewrite p_alert, p_upper. assert (E : lit "> [!" ++ F (uppercase upper (as_markdown_str t)) ++ lit "]" = F (lit "> [!" ++ uppercase upper (as_markdown_str t) ++ lit "]")) by (rewrite !map_app; now lits).
    rewrite E. set (mk := lit "> [!" ++ uppercase upper (as_markdown_str t) ++ lit "]"). destruct h; [|apply t_intersperse; [constructor|exact (m_texts [mk])]].
    rewrite (t_render 80 _ _ D). destruct (render uwidth 80 d) as [s|]; [|constructor]. cbn [option_map]. rewrite p_lines. apply t_intersperse; [constructor|].
    replace (map alert_line (map F (lines s))) with (map F (map alert_line (lines s))); [exact (m_texts (mk :: map alert_line (lines s)))|].
    rewrite !map_map. apply map_ext. intros l. now rewrite p_alert_line.
  Qed.
  Lemma p_join : forall x ls, (x < 128)%N -> join [x] (map F ls) = F (join [x] ls).
  Proof.
    intros x ls L. induction ls as [|a [|b ls] IH]; [reflexivity|reflexivity|]. cbn [map] in *. change (join [x] (F a :: F b :: map F ls)) with (F a ++ [x] ++ join [x] (F b :: map F ls)).
    change (join [x] (a :: b :: ls)) with (a ++ [x] ++ join [x] (b :: ls)). rewrite IH, !map_app. cbn [map]. now rewrite (p_lo x L).
  Qed.
  Lemma m_code : forall c, dsim (md_code_block c) (md_code_block (spell_code f c)).
  Proof.
    intros [[|i] l]; cbn [spell_code md_code_block].
    - apply t_. rewrite p_lines. rewrite <- p_join by reflexivity. f_equal. rewrite !map_map. apply map_ext. intros x. rewrite map_app. now lits.
    - repeat apply t_append; apply t_; [|reflexivity|symmetry; apply p_fixb; reflexivity]. rewrite !map_app. replace (F [c_nl]) with [c_nl] by (cbn [map]; now rewrite (p_lo c_nl eq_refl)). destruct i; cbn [option_map]; now lits.
  Qed.
  Section MdBlocks.
    Variable config : md_config.
    Lemma m_blocks_go : forall bs fs, Forall (fun b => dsim (fs b) (md_block uwidth upper udigit big config (sb b))) bs -> forall fst d d', dsim d d' ->
      dsim (blocks_go config d fst (map (fun x => (x, fs x)) bs)) (blocks_go config d' fst (map (fun x => (x, md_block uwidth upper udigit big config x)) (map sb bs))).
    Proof.
      intros bs fs X. induction X as [|b bs B _ IH]; intros fst d d' D; [exact D|]. cbn [map blocks_go]. apply IH. apply t_append; [|exact B].
      destruct fst; [exact D|]. assert (T : dsim (append (append d DHardline) DHardline) (append (append d' DHardline) DHardline)) by (repeat apply t_append; [exact D|constructor|constructor]).
      destruct b; cbn [spell_block]; try exact T. destruct (md_empty_line_before_list config); [exact T|]. apply t_append; [exact D|constructor].
    Qed.
    Lemma m_children : forall bs, Forall (fun b => dsim (md_block uwidth upper udigit big config b) (md_block uwidth upper udigit big config (sb b))) bs ->
      dsim (md_blocks uwidth upper udigit big config bs) (md_blocks uwidth upper udigit big config (map sb bs)).
    Proof. intros bs X. apply m_blocks_go; [exact X|constructor]. Qed.
    Lemma m_item : forall k n p t d d', dsim d d' -> dsim (item_doc config k n p t d) (item_doc config k n p t d').
    Proof.
      intros k n p t d d' D. unfold item_doc. cbv zeta. repeat apply t_append; [| |exact t_space| |].
      - apply t_. now rewrite p_rep.
      - apply t_. destruct k as [|[]]; cbn [item_marker]; rewrite ?map_app, ?p_dec; now lits.
      - destruct t as [[]|]; [| |constructor]; (apply t_append; [apply t_; now lits|exact t_space]).
      - apply t_group. now apply t_nest.
    Qed.
    Lemma m_items : forall A (k1 k2 : A -> option task_state * doc) k p l, Forall (fun x => fst (k1 x) = fst (k2 x) /\ dsim (snd (k1 x)) (snd (k2 x))) l ->
      forall n, Forall2 dsim (items_go config k n p (map k1 l)) (items_go config k n p (map k2 l)).
    Proof.
      intros A k1 k2 k p l X. induction X as [|x l [E D] _ IH]; intros n; [constructor|]. cbn [map items_go]. destruct (k1 x) as [t1 d1], (k2 x) as [t2 d2]. cbn [fst snd] in *. subst t2.
      destruct k; [destruct (n <? u64_max)%N|]; repeat constructor; try (now apply m_item); apply IH.
    Qed.
    Lemma m_list : forall A (k1 k2 : A -> option task_state * doc) k l, Forall (fun x => fst (k1 x) = fst (k2 x) /\ dsim (snd (k1 x)) (snd (k2 x))) l ->
      dsim (md_list config k (map k1 l)) (md_list config k (map k2 l)).
    Proof.
      intros A k1 k2 k l X. unfold md_list. cbv zeta. rewrite !map_length. destruct k; [|]; repeat match goal with |- context [if ?b then _ else _] => destruct b end; try constructor; (apply t_intersperse; [constructor|now apply m_items]).
    Qed.
    Lemma m_quote : forall d d' n, dsim d d' -> dsim (quote_at uwidth config d n) (quote_at uwidth config d' n).
    Proof.
      intros d d' n D. unfold quote_at. destruct (md_width config <? n + 2); [constructor|]. rewrite (t_render _ _ _ D). destruct (render uwidth _ d) as [s|]; [|constructor]. cbn [option_map].
      rewrite p_lines, map_map. apply t_intersperse; [constructor|]. apply Forall2_maps. apply Forall_forall. intros l _. apply t_append; [apply t_; now lits|constructor].
    Qed.
    Lemma m_blk : forall b, dsim (md_block uwidth upper udigit big config b) (md_block uwidth upper udigit big config (sb b)).
    Proof.
      apply (block_ind' (fun b => dsim (md_block uwidth upper udigit big config b) (md_block uwidth upper udigit big config (sb b)))); intros; cbn [spell_block md_block h_content h_kind l_items l_kind li_blocks li_task fd_blocks fd_label ga_blocks ga_type t_rows].
      - apply m_inls.
      - destruct h as [k l]. apply m_heading.
      - apply t_; now lits.
      - constructor. intros n. apply m_quote. now apply m_children.
      - rewrite map_map. apply m_list. revert H0. apply Forall_impl. intros it X. cbn [li_blocks li_task fst snd]. split; [reflexivity|]. now apply m_children.
      - apply m_code.
      - constructor.
      - unfold md_definition. cbn [ld_label ld_destination ld_title]. repeat apply t_append; try (apply t_; now lits); [apply m_inls|]. apply t_. rewrite map_app. destruct (ld_title _); cbn [option_map]; [rewrite !map_app; now lits|reflexivity].
      - destruct t as [rows al]. apply m_table.
      - apply t_append; [apply t_; rewrite !map_app; now lits|now apply m_children].
      - match goal with |- context [md_alert _ _ _ (match map sb ?l with _ => _ end)] => replace (match map sb l with [] => false | _ => true end) with (match l with [] => false | _ => true end) by (now destruct l) end. apply m_alert. now apply m_children.
      - constructor.
    Qed.
  End MdBlocks.
  Lemma markdown_alike : forall d c, render_markdown uwidth upper udigit big (spell f d) c = option_map F (render_markdown uwidth upper udigit big d c).
  Proof.
    intros d c. unfold render_markdown. apply t_render. cbn [spell d_blocks]. apply m_children. apply Forall_forall. intros b _. apply m_blk.
  Qed.
End Print.
