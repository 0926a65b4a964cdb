(** Proofs about the HTML printer. *)
From Coq Require Import String.
From Verif Require Import SpecHtml.
Import ListNotations.
Open Scope list_scope.

(** ** Small facts *)
Lemma str_eqb_refl a : str_eqb a a = true.
Proof. induction a as [|x a IH]; cbn; [reflexivity|]. rewrite N.eqb_refl. exact IH. Qed.
Lemma str_eqb_eq a b : str_eqb a b = true <-> a = b.
Proof.
  split; [|intros ->; apply str_eqb_refl].
  revert b; induction a as [|x a IH]; intros [|y b]; cbn; intro H; try congruence.
  apply andb_true_iff in H as [H1 H2]. apply N.eqb_eq in H1. subst. f_equal. auto.
Qed.
Lemma str_eqb_neq a b : str_eqb a b = false <-> a <> b.
Proof.
  split.
  - intros H E. apply str_eqb_eq in E. congruence.
  - intro H. destruct (str_eqb a b) eqn:E; [|reflexivity]. apply str_eqb_eq in E. contradiction.
Qed.

(** ** Layout-free documents *)
Definition oapp (a b : option str) : option str :=
  match a, b with Some x, Some y => Some (x ++ y) | _, _ => None end.
Lemma oapp_nil_r a : oapp a (Some []) = a.
Proof. destruct a; cbn; [rewrite app_nil_r|]; reflexivity. Qed.
Lemma oapp_nil_l a : oapp (Some []) a = a.
Proof. destruct a; reflexivity. Qed.
Lemma oapp_assoc a b c : oapp (oapp a b) c = oapp a (oapp b c).
Proof. destruct a, b, c; cbn; try rewrite app_assoc; reflexivity. Qed.
Lemma dtext_append a b : dtext (append a b) = oapp (dtext a) (dtext b).
Proof.
  destruct a; try (symmetry; exact (oapp_nil_l (dtext b))); destruct b;
    try (symmetry; apply oapp_nil_r); reflexivity.
Qed.
Lemma dtext_fold l acc : dtext (fold_left append l acc) = fold_left (fun a x => oapp a (dtext x)) l (dtext acc).
Proof.
  revert acc; induction l as [|x l IH]; intro acc; cbn [fold_left]; [reflexivity|].
  rewrite IH, dtext_append. reflexivity.
Qed.

(** Documents made of texts and concatenation, possibly with a panic inside *)
Fixpoint flat_doc (d : doc) : Prop :=
  match d with
  | DNil | DText _ | DPanic => True
  | DAppend a b => flat_doc a /\ flat_doc b
  | _ => False
  end.
Lemma flat_append a b : flat_doc a -> flat_doc b -> flat_doc (append a b).
Proof. intros Ha Hb. destruct a; cbn in *; auto; destruct b; cbn in *; auto. Qed.
Lemma flat_concat l : Forall flat_doc l -> flat_doc (concat_docs l).
Proof.
  unfold concat_docs. assert (G : flat_doc DNil) by exact I. revert G. generalize DNil. intros acc Ha H.
  revert acc Ha H; induction l as [|x l IH]; intros acc Ha H; cbn [fold_left]; [exact Ha|].
  inversion H; subst. apply IH; [apply flat_append|]; assumption.
Qed.
Lemma best_flat uw w d : flat_doc d -> forall ind m rest pos,
  option_map fst (best uw w ind m d rest pos) = dtext d.
Proof.
  induction d; cbn [flat_doc]; intro HF; try contradiction; intros; cbn [best dtext option_map fst]; try reflexivity.
  destruct HF as [H1 H2].
  specialize (IHd1 H1 ind m ((ind, m, d2) :: rest) pos).
  destruct (best uw w ind m d1 ((ind, m, d2) :: rest) pos) as [[sa p1]|] eqn:E1; cbn in IHd1; rewrite <- IHd1.
  - specialize (IHd2 H2 ind m rest p1).
    destruct (best uw w ind m d2 rest p1) as [[sb p2]|] eqn:E2; cbn in IHd2; rewrite <- IHd2; reflexivity.
  - reflexivity.
Qed.
Lemma render_flat uw w d : flat_doc d -> render uw w d = dtext d.
Proof. intro H. unfold render. apply best_flat, H. Qed.

(** *** The HTML printer only builds layout-free documents *)
Lemma flat_tag n a d : flat_doc d -> flat_doc (tag n a d).
Proof.
  intro H. unfold tag. apply flat_append; [apply flat_append|]; try assumption.
  - apply flat_append; [|exact I]. apply flat_append; [cbn; auto|].
    assert (G : flat_doc DNil) by exact I. revert G. generalize DNil.
    induction a as [|kv a IH]; intros acc Ha; cbn [fold_left]; [exact Ha|].
    apply IH. apply flat_append; cbn; auto.
  - cbn; auto.
Qed.
Lemma flat_inline st i : flat_doc (inline_to_doc st i).
Proof.
  induction i as [s| |s|s|d t c Hc|l t Hl Ht|im|c Hc|c Hc|c Hc|s|s|] using inline_ind';
    cbn [inline_to_doc]; try exact I; try (apply flat_tag; try exact I; try (apply flat_concat; apply Forall_map; assumption)).
  - destruct (get_link_definition st _); [|exact I]. apply flat_tag, flat_concat, Forall_map. exact Ht.
  - destruct (get_footnote_index st _); [|exact I]. apply flat_tag. exact I.
Qed.
Lemma flat_inlines st l : flat_doc (inlines_to_doc st l).
Proof. apply flat_concat, Forall_map, Forall_forall. intros; apply flat_inline. Qed.
Lemma flat_cells st tagn al row : forall i acc, flat_doc acc -> flat_doc (cells_to_doc st tagn al i row acc).
Proof.
  induction row as [|c row IH]; intros i acc H; cbn [cells_to_doc]; [exact H|].
  apply IH, flat_append; [exact H|]. apply flat_tag, flat_inlines.
Qed.
Lemma flat_row st tagn al row : flat_doc (table_row_to_doc st row tagn al).
Proof. apply flat_tag, flat_cells. exact I. Qed.
Lemma flat_block st b : flat_doc (block_to_doc st b).
Proof.
  assert (HT : forall n a, forall d, flat_doc d -> flat_doc (tag n a d)) by (intros; apply flat_tag; assumption).
  induction b as [c|h| |bs H|k items H|c|s|d|t|l bs H|t bs H|] using block_ind'; cbn [block_to_doc]; try exact I;
    try (apply HT; try exact I; try apply flat_inlines; try (apply flat_concat, Forall_map; assumption)).
  - assert (flat_doc (concat_docs (map (fun it : list_item => tag (lit "li") []
        (append (task_to_doc (li_task it)) (concat_docs (map (block_to_doc st) (li_blocks it))))) items))) as G.
    { apply flat_concat, Forall_map. eapply Forall_impl; [|exact H]. intros it Hit. apply HT, flat_append.
      - destruct (li_task it) as [[]|]; cbn; tauto.
      - apply flat_concat, Forall_map, Hit. }
    destruct k as [n|[]]; apply HT, G.
  - apply HT. exact I.
  - unfold table_to_doc. destruct (t_rows t) as [|r rows]; [exact I|].
    apply HT, flat_append; apply HT; [apply flat_row|].
    assert (G : flat_doc DNil) by exact I. revert G. generalize DNil.
    induction rows as [|r' rows IH]; intros acc Ha; cbn [fold_left]; [exact Ha|].
    apply IH, flat_append; [exact Ha|apply flat_row].
  - destruct (get_footnote_index st _); [|exact I].
    apply HT, flat_append; apply HT; [exact I|apply flat_concat, Forall_map, H].
  - apply flat_append; [apply HT; cbn; auto|apply flat_concat, Forall_map, H].
Qed.
Lemma flat_blocks st l : flat_doc (blocks_to_doc st l).
Proof. apply flat_concat, Forall_map, Forall_forall. intros; apply flat_block. Qed.

Lemma render_html_dtext uw d cfg :
  render_html uw d cfg = dtext (blocks_to_doc (html_state_new cfg d) (d_blocks d)).
Proof. apply render_flat, flat_blocks. Qed.

Lemma inline_to_doc_config ix c1 c2 i : hc_anchor_prefix c1 = hc_anchor_prefix c2 ->
  inline_to_doc (HtmlState c1 ix) i = inline_to_doc (HtmlState c2 ix) i.
Proof.
  intro E.
  assert (HL : forall l, Forall (fun i => inline_to_doc (HtmlState c1 ix) i = inline_to_doc (HtmlState c2 ix) i) l ->
     map (inline_to_doc (HtmlState c1 ix)) l = map (inline_to_doc (HtmlState c2 ix)) l)
    by (intros l H; induction H; cbn; congruence).
  induction i as [s| |s|s|d t c Hc|l t Hl Ht|im|c Hc|c Hc|c Hc|s|s|] using inline_ind';
    cbn [inline_to_doc link_children lr_text lr_label]; try reflexivity; try (rewrite (HL _ Hc); reflexivity).
  - unfold get_link_definition; cbn [hs_index]. rewrite (HL _ Ht). reflexivity.
  - unfold get_footnote_index; cbn [hs_index hs_config]. rewrite E. reflexivity.
Qed.
Lemma inlines_to_doc_config ix c1 c2 l : hc_anchor_prefix c1 = hc_anchor_prefix c2 ->
  inlines_to_doc (HtmlState c1 ix) l = inlines_to_doc (HtmlState c2 ix) l.
Proof.
  intro E. unfold inlines_to_doc. f_equal. apply map_ext. intro. apply inline_to_doc_config, E.
Qed.
Lemma cells_to_doc_config ix c1 c2 tagn al row : hc_anchor_prefix c1 = hc_anchor_prefix c2 -> forall i acc,
  cells_to_doc (HtmlState c1 ix) tagn al i row acc = cells_to_doc (HtmlState c2 ix) tagn al i row acc.
Proof.
  intro E. induction row as [|c row IH]; intros i acc; cbn [cells_to_doc]; [reflexivity|].
  rewrite IH, (inlines_to_doc_config ix c1 c2 c E). reflexivity.
Qed.
Lemma row_to_doc_config ix c1 c2 row tagn al : hc_anchor_prefix c1 = hc_anchor_prefix c2 ->
  table_row_to_doc (HtmlState c1 ix) row tagn al = table_row_to_doc (HtmlState c2 ix) row tagn al.
Proof. intro E. unfold table_row_to_doc. rewrite (cells_to_doc_config ix c1 c2 _ _ _ E). reflexivity. Qed.
Lemma block_to_doc_config ix c1 c2 b : hc_anchor_prefix c1 = hc_anchor_prefix c2 ->
  block_to_doc (HtmlState c1 ix) b = block_to_doc (HtmlState c2 ix) b.
Proof.
  intro E.
  assert (HL : forall l, Forall (fun i => block_to_doc (HtmlState c1 ix) i = block_to_doc (HtmlState c2 ix) i) l ->
     map (block_to_doc (HtmlState c1 ix)) l = map (block_to_doc (HtmlState c2 ix)) l)
    by (intros l H; induction H; cbn; congruence).
  induction b as [c|h| |bs H|k items H|c|s|d|t|l bs H|t bs H|] using block_ind';
    cbn [block_to_doc fd_blocks fd_label ga_blocks ga_type l_items l_kind]; try reflexivity;
    rewrite ?(inlines_to_doc_config ix c1 c2 _ E); try reflexivity.
  - rewrite (HL _ H). reflexivity.
  - f_equal. f_equal. induction H as [|it items Hit _ IH]; cbn [map]; [reflexivity|].
    rewrite IH, (HL _ Hit). reflexivity.
  - unfold table_to_doc. destruct (t_rows t) as [|r rows]; [reflexivity|].
    rewrite (row_to_doc_config ix c1 c2 r _ _ E).
    assert (G : forall acc, fold_left (fun acc row => append acc (table_row_to_doc (HtmlState c1 ix) row (lit "td") (t_alignments t))) rows acc
      = fold_left (fun acc row => append acc (table_row_to_doc (HtmlState c2 ix) row (lit "td") (t_alignments t))) rows acc).
    { induction rows as [|r' rows IH]; intro acc; cbn [fold_left]; [reflexivity|].
      rewrite IH, (row_to_doc_config ix c1 c2 r' _ _ E). reflexivity. }
    rewrite G. reflexivity.
  - unfold get_footnote_index; cbn [hs_index]. rewrite (HL _ H). reflexivity.
  - rewrite (HL _ H). reflexivity.
Qed.
Lemma render_html_width uw1 uw2 d c1 c2 : hc_anchor_prefix c1 = hc_anchor_prefix c2 ->
  render_html uw1 d c1 = render_html uw2 d c2.
Proof.
  intro E. rewrite !render_html_dtext. unfold blocks_to_doc, html_state_new. f_equal. f_equal.
  apply map_ext. intro. apply block_to_doc_config, E.
Qed.

(** ** Lexing *)
Lemma lex_run_app s a b : lex_run s (a ++ b) =
  match lex_run s a with
  | None => None
  | Some (s1, t1) => match lex_run s1 b with None => None | Some (s2, t2) => Some (s2, t1 ++ t2) end
  end.
Proof.
  revert s; induction a as [|c a IH]; intro s; cbn [lex_run app].
  - destruct (lex_run s b) as [[? ?]|]; reflexivity.
  - destruct (lex_step s c) as [[s1 t1]|]; [|reflexivity]. rewrite IH.
    destruct (lex_run s1 a) as [[s2 t2]|]; [|reflexivity].
    destruct (lex_run s2 b) as [[s3 t3]|]; [|reflexivity]. rewrite app_assoc. reflexivity.
Qed.
Lemma tokens_run x ts : tokens x = Some ts <-> lex_run LText x = Some (LText, ts).
Proof.
  unfold tokens. destruct (lex_run LText x) as [[[] ?]|]; split; intro H; congruence.
Qed.
Lemma tokens_app a b ta tb : tokens a = Some ta -> tokens b = Some tb -> tokens (a ++ b) = Some (ta ++ tb).
Proof. rewrite !tokens_run. intros H1 H2. rewrite lex_run_app, H1, H2. reflexivity. Qed.
Lemma tokens_nil : tokens [] = Some [].
Proof. reflexivity. Qed.

Lemma escape_app a b : escape (a ++ b) = escape a ++ escape b.
Proof. apply flat_map_app. Qed.
Lemma escape_char_cases (P : char -> Prop) c :
  P 38%N -> P 60%N -> P 62%N -> P 34%N -> P 39%N -> (special c = false -> P c) -> P c.
Proof.
  intros. unfold special in *.
  destruct (N.eqb_spec c 38); [congruence|]. destruct (N.eqb_spec c 60); [congruence|].
  destruct (N.eqb_spec c 62); [congruence|]. destruct (N.eqb_spec c 34); [congruence|].
  destruct (N.eqb_spec c 39); [congruence|]. auto.
Qed.
Lemma special_false c : special c = false ->
  N.eqb c 38 = false /\ N.eqb c 60 = false /\ N.eqb c 62 = false /\ N.eqb c 34 = false /\ N.eqb c 39 = false.
Proof. unfold special. rewrite !orb_false_iff. tauto. Qed.
Lemma escape_char_plain c : special c = false -> escape_char c = [c].
Proof. intro H. apply special_false in H as (H1&H2&H3&H4&H5). unfold escape_char. rewrite H1, H2, H3, H4, H5. reflexivity. Qed.
Lemma run_text_char c : lex_run LText (escape_char c) = Some (LText, [TChar c]).
Proof.
  apply (escape_char_cases (fun c => lex_run LText (escape_char c) = Some (LText, [TChar c]))); try reflexivity.
  intro H. rewrite (escape_char_plain c H). apply special_false in H as (H1&H2&H3&H4&H5).
  cbn [lex_run lex_step]. rewrite H1, H2, H3. reflexivity.
Qed.
Lemma tokens_escape s : tokens (escape s) = Some (map TChar s).
Proof.
  induction s as [|c s IH]; [reflexivity|].
  change (escape (c :: s)) with (escape_char c ++ escape s). cbn [map].
  change (TChar c :: map TChar s) with ([TChar c] ++ map TChar s).
  apply tokens_app; [apply tokens_run, run_text_char|exact IH].
Qed.
Lemma run_val_char n a k v c : lex_run (LVal n a k v) (escape_char c) = Some (LVal n a k (v ++ [c]), []).
Proof.
  apply (escape_char_cases (fun c => lex_run (LVal n a k v) (escape_char c) = Some (LVal n a k (v ++ [c]), []))); try reflexivity.
  intro H. rewrite (escape_char_plain c H). apply special_false in H as (H1&H2&H3&H4&H5).
  cbn [lex_run lex_step]. rewrite H1, H2, H3, H4. reflexivity.
Qed.
Lemma run_val n a k s : forall v, lex_run (LVal n a k v) (escape s) = Some (LVal n a k (v ++ s), []).
Proof.
  induction s as [|c s IH]; intro v; [cbn; rewrite app_nil_r; reflexivity|].
  change (escape (c :: s)) with (escape_char c ++ escape s).
  rewrite lex_run_app, run_val_char, IH, <- app_assoc. reflexivity.
Qed.

(** Names of tags and attributes *)
Definition name_ok (s : str) : bool :=
  match s with c :: s' => is_alpha c && forallb is_alnum s' | [] => false end.
Definition key_ok (s : str) : bool := nonempty s && forallb (fun c => is_alnum c || N.eqb c 45) s.

Lemma alnum_not c x : is_alnum c = true -> is_alnum x = false -> N.eqb c x = false.
Proof. intros H1 H2. destruct (N.eqb_spec c x); congruence. Qed.
Lemma run_name n s : forallb is_alnum s = true -> lex_run (LName n) s = Some (LName (n ++ s), []).
Proof.
  revert n; induction s as [|c s IH]; intros n H; [cbn; rewrite app_nil_r; reflexivity|].
  cbn [forallb] in H. apply andb_true_iff in H as [Hc Hs]. cbn [lex_run lex_step].
  rewrite (alnum_not c 62%N Hc eq_refl), (alnum_not c 32%N Hc eq_refl), Hc, (IH _ Hs), <- app_assoc. reflexivity.
Qed.
Lemma run_close n s : forallb is_alnum s = true -> lex_run (LClose n) s = Some (LClose (n ++ s), []).
Proof.
  revert n; induction s as [|c s IH]; intros n H; [cbn; rewrite app_nil_r; reflexivity|].
  cbn [forallb] in H. apply andb_true_iff in H as [Hc Hs]. cbn [lex_run lex_step].
  rewrite (alnum_not c 62%N Hc eq_refl), Hc, (IH _ Hs), <- app_assoc. reflexivity.
Qed.
Lemma run_key n a s : forall k, forallb (fun c => is_alnum c || N.eqb c 45) s = true ->
  lex_run (LKey n a k) s = Some (LKey n a (k ++ s), []).
Proof.
  induction s as [|c s IH]; intros k H; [cbn; rewrite app_nil_r; reflexivity|].
  cbn [forallb] in H. apply andb_true_iff in H as [Hc Hs]. cbn [lex_run lex_step].
  assert (N.eqb c 61 = false) as -> by (destruct (N.eqb_spec c 61); [subst; discriminate|reflexivity]).
  rewrite Hc, (IH _ Hs), <- app_assoc. reflexivity.
Qed.
Lemma name_ok_alnum s : name_ok s = true -> forallb is_alnum s = true /\ nonempty s = true.
Proof.
  destruct s as [|c s]; cbn; [discriminate|]. unfold is_alnum at 2. rewrite !andb_true_iff.
  intros [-> ->]. auto.
Qed.
Lemma run_open_name n : name_ok n = true -> lex_run LText (lit "<" ++ n) = Some (LName n, []).
Proof.
  destruct n as [|c n]; [discriminate|]. cbn [name_ok]. intro H. apply andb_true_iff in H as [Hc Hn].
  rewrite lex_run_app. change (lex_run LText (lit "<")) with (Some (LLt, @nil tok)). cbv iota.
  cbn [lex_run lex_step].
  assert (N.eqb c 47 = false) as -> by (destruct (N.eqb_spec c 47); [subst; discriminate|reflexivity]).
  rewrite Hc, (run_name _ _ Hn). reflexivity.
Qed.
Definition attr_str (kv : str * str) : str := lit " " ++ fst kv ++ lit "=""" ++ escape (snd kv) ++ lit """".
Lemma run_attr_from s n a k v :
  lex_run s (lit " ") = Some (LKey n a [], []) -> key_ok k = true ->
  lex_run s (attr_str (k, v)) = Some (LAfter n (a ++ [(k, v)]), []).
Proof.
  intros H0 Hk. unfold key_ok in Hk. apply andb_true_iff in Hk as [Hne Hk].
  unfold attr_str; cbn [fst snd]. rewrite lex_run_app, H0, lex_run_app, (run_key _ _ _ _ Hk).
  cbn [app]. rewrite lex_run_app.
  assert (lex_run (LKey n a k) (lit "=""") = Some (LVal n a k [], [])) as ->.
  { change (lit "=""") with [61%N; 34%N]. cbn [lex_run lex_step].
    rewrite N.eqb_refl, Hne. cbn [N.eqb]. reflexivity. }
  rewrite lex_run_app, run_val. reflexivity.
Qed.
Lemma run_attrs n l : Forall (fun kv => key_ok (fst kv) = true) l -> forall a,
  lex_run (LAfter n a) (flat_map attr_str l) = Some (LAfter n (a ++ l), []).
Proof.
  induction 1 as [|[k v] l Hk Hl IH]; intro a; cbn [flat_map]; [rewrite app_nil_r; reflexivity|].
  rewrite lex_run_app, (run_attr_from _ n a) by (try reflexivity; exact Hk).
  rewrite IH, <- app_assoc. reflexivity.
Qed.
Lemma tokens_open n l : name_ok n = true -> Forall (fun kv => key_ok (fst kv) = true) l ->
  tokens (lit "<" ++ n ++ flat_map attr_str l ++ lit ">") = Some [TOpen n l].
Proof.
  intros Hn Hl. apply tokens_run. rewrite app_assoc, lex_run_app, (run_open_name _ Hn), lex_run_app.
  destruct Hl as [|[k v] l Hk Hl]; [reflexivity|]. cbn [flat_map].
  rewrite lex_run_app, (run_attr_from _ n []) by (try reflexivity; exact Hk).
  rewrite (run_attrs _ _ Hl). reflexivity.
Qed.
Lemma tokens_close n : name_ok n = true -> tokens (lit "</" ++ n ++ lit ">") = Some [TClose n].
Proof.
  intros Hn. apply name_ok_alnum in Hn as [Hn Hne]. apply tokens_run.
  rewrite lex_run_app. change (lex_run LText (lit "</")) with (Some (LClose [], @nil tok)). cbv iota.
  rewrite lex_run_app, (run_close _ _ Hn). cbn [app]. change (lit ">") with [62%N]. cbn [lex_run lex_step].
  rewrite N.eqb_refl, Hne. reflexivity.
Qed.

Lemma balanced_app a b : balanced a -> balanced b -> balanced (a ++ b).
Proof.
  induction 1 as [|c ts H IH|n at_ inner ts H1 IH1 H2 IH2]; intro Hb; cbn [app]; [exact Hb|constructor; auto|].
  rewrite <- app_assoc. cbn [app]. constructor; auto.
Qed.
Lemma balanced_chars s : balanced (map TChar s).
Proof. induction s; cbn; constructor; assumption. Qed.

(** ** The printed documents mean their views *)
Definition means (d : doc) (ns : list node) : Prop :=
  exists s, dtext d = Some s /\ tokens s = Some (flatten_all ns) /\ balanced (flatten_all ns).

Lemma means_nil : means DNil [].
Proof. exists []. repeat split; constructor. Qed.
Lemma flatten_all_app a b : flatten_all (a ++ b) = flatten_all a ++ flatten_all b.
Proof. apply flat_map_app. Qed.
Lemma means_append a b na nb : means a na -> means b nb -> means (append a b) (na ++ nb).
Proof.
  intros (sa & Ha & Ta & Ba) (sb & Hb & Tb & Bb). exists (sa ++ sb).
  rewrite dtext_append, Ha, Hb, flatten_all_app. repeat split; auto using tokens_app, balanced_app.
Qed.
Lemma means_chars s : means (DText (escape s)) [Chars s].
Proof.
  exists (escape s). unfold flatten_all; cbn [flat_map flatten]. rewrite app_nil_r.
  repeat split; auto using tokens_escape, balanced_chars.
Qed.
Lemma means_raw s : raw_ok s -> means (DText s) [Raw s].
Proof.
  intros (ts & Ht & Hb). exists s. unfold flatten_all; cbn [flat_map flatten]. rewrite Ht, app_nil_r. auto.
Qed.
Lemma dtext_attrs l : forall acc, dtext (fold_left (fun acc kv =>
      append acc (append (append (append (append (DText (lit " ")) (DText (fst kv))) (DText (lit "=""")))
                    (DText (escape (snd kv)))) (DText (lit """")))) l acc)
  = oapp (dtext acc) (Some (flat_map attr_str l)).
Proof.
  induction l as [|kv l IH]; intro acc; cbn [fold_left flat_map]; [rewrite oapp_nil_r; reflexivity|].
  rewrite IH, dtext_append, oapp_assoc. cbn [append dtext oapp]. unfold attr_str.
  rewrite <- !app_assoc. reflexivity.
Qed.
Lemma dtext_tag n a d : dtext (tag n a d) =
  oapp (Some (lit "<" ++ n ++ flat_map attr_str a ++ lit ">")) (oapp (dtext d) (Some (lit "</" ++ n ++ lit ">"))).
Proof.
  unfold tag. rewrite !dtext_append, dtext_attrs. cbn [dtext]. rewrite oapp_nil_l. cbn [oapp].
  rewrite <- !app_assoc. destruct (dtext d); cbn [oapp]; [rewrite <- !app_assoc; reflexivity|reflexivity].
Qed.
Lemma means_tag n a d ns : name_ok n = true -> Forall (fun kv => key_ok (fst kv) = true) a ->
  means d ns -> means (tag n a d) [Elem n a ns].
Proof.
  intros Hn Ha (s & Hs & Ts & Bs).
  exists ((lit "<" ++ n ++ flat_map attr_str a ++ lit ">") ++ s ++ (lit "</" ++ n ++ lit ">")).
  split; [rewrite dtext_tag, Hs; reflexivity|].
  assert (E : flatten_all [Elem n a ns] = [TOpen n a] ++ flatten_all ns ++ [TClose n])
    by (unfold flatten_all; cbn [flat_map flatten]; rewrite app_nil_r; reflexivity).
  rewrite E. split.
  - apply tokens_app; [apply tokens_open; assumption|]. apply tokens_app; [assumption|apply tokens_close; assumption].
  - cbn [app]. apply bal_elem; [assumption|constructor].
Qed.
Lemma means_fold (l : list doc) (nss : list (list node)) : Forall2 means l nss -> forall acc na,
  means acc na -> means (fold_left append l acc) (na ++ concat nss).
Proof.
  induction 1 as [|d ns l nss Hd Hl IH]; intros acc na Ha; cbn [fold_left concat]; [rewrite app_nil_r; exact Ha|].
  rewrite app_assoc. apply IH, means_append; assumption.
Qed.
Lemma means_concat {A} (f : A -> doc) (g : A -> list node) l :
  Forall (fun x => means (f x) (g x)) l -> means (concat_docs (map f l)) (flat_map g l).
Proof.
  intro H. rewrite flat_map_concat_map. apply (means_fold _ (map g l)) with (na := []); [|apply means_nil].
  induction H; constructor; assumption.
Qed.

(** ** The index *)
Lemma fold_left_flat_map {A B S} (f : S -> B -> S) (g : A -> list B) l s :
  fold_left f (flat_map g l) s = fold_left (fun s x => fold_left f (g x) s) l s.
Proof. revert s; induction l as [|x l IH]; intro s; cbn; [reflexivity|]. rewrite fold_left_app. apply IH. Qed.
(* what one block contributes itself *)
Definition own (ix : index) (b : block) : index :=
  match b with
  | BDefinition v => get_inlines_indicies
        (Index (footnote_indices ix) (map_insert (ld_label v) v (link_definitions ix)) (last_footnote_index ix))
        (ld_label v)
  | _ => get_inlines_indicies ix (block_inlines b)
  end.
Lemma fold_left_concat {A S} (f : S -> A -> S) (l : list (list A)) s :
  fold_left (fun s x => fold_left f x s) l s = fold_left f (concat l) s.
Proof. revert s; induction l as [|x l IH]; intro s; cbn; [reflexivity|]. rewrite fold_left_app. apply IH. Qed.
Lemma get_block_own b : forall ix, get_block_indicies ix b = fold_left own (block_preorder b) ix.
Proof.
  assert (HL : forall l, Forall (fun b => forall ix, get_block_indicies ix b = fold_left own (block_preorder b) ix) l ->
    forall ix, fold_left get_block_indicies l ix = fold_left own (flat_map block_preorder l) ix).
  { induction 1 as [|x l Hx Hl IH]; intro ix; cbn; [reflexivity|]. rewrite fold_left_app, Hx. apply IH. }
  induction b as [c|h| |bs H|k items H|c|s|d|t|l bs H|t bs H|] using block_ind'; intro ix;
    cbn [get_block_indicies block_preorder fold_left own block_inlines fd_blocks ga_blocks l_items]; try reflexivity; try (apply HL; exact H).
  - revert ix. induction H as [|it items Hit _ IH]; intro ix; cbn [fold_left flat_map]; [reflexivity|].
    rewrite fold_left_app, (HL _ Hit). apply IH.
  - unfold get_inlines_indicies. rewrite <- fold_left_concat.
    generalize (t_rows t) as rows. intro rows. revert ix. induction rows as [|r rows IH]; intro ix; cbn; [reflexivity|].
    rewrite fold_left_app. apply IH.
Qed.
Lemma get_indicies_own d : get_indicies d = fold_left own (doc_blocks d) index_new.
Proof.
  unfold get_indicies, doc_blocks. rewrite fold_left_flat_map.
  generalize index_new. induction (d_blocks d) as [|b l IH]; intro ix; cbn; [reflexivity|].
  rewrite get_block_own. apply IH.
Qed.

(* association lists as the reference numbering *)
Definition numbered (ix : index) (seen : list str) : Prop :=
  (forall x, map_get str_eqb x (footnote_indices ix) = position x seen) /\
  last_footnote_index ix = (N.of_nat (List.length seen) + 1)%N.
Lemma position_app x a b : position x (a ++ b) =
  match position x a with Some n => Some n | None => option_map (fun n => (N.of_nat (List.length a) + n)%N) (position x b) end.
Proof.
  induction a as [|y a IH]; cbn [app position List.length].
  - destruct (position x b); reflexivity.
  - destruct (str_eqb x y); [reflexivity|]. rewrite IH. destruct (position x a); cbn; [reflexivity|].
    destruct (position x b) as [n|]; cbn [option_map]; [|reflexivity]. f_equal.
    change (N.succ (N.of_nat (List.length a) + n) = N.of_nat (S (List.length a)) + n)%N. lia.
Qed.
Lemma position_none x l : position x l = None <-> ~ In x l.
Proof.
  induction l as [|y l IH]; cbn; [tauto|]. destruct (str_eqb x y) eqn:E.
  - apply str_eqb_eq in E. subst. split; [discriminate|]. intro H; exfalso; apply H; auto.
  - apply str_eqb_neq in E. destruct (position x l) eqn:P; cbn; split; intro H; try congruence.
    + exfalso. assert (P' : ~ (Some n = None)) by discriminate. apply P'. apply IH. tauto.
    + intros [G|G]; [congruence|]. apply IH in G; auto.
Qed.
Definition add_seen (seen : list str) (x : str) : list str :=
  if existsb (str_eqb x) seen then seen else seen ++ [x].
Lemma existsb_In x seen : existsb (str_eqb x) seen = true <-> In x seen.
Proof.
  rewrite existsb_exists. split.
  - intros (y & Hy & E). apply str_eqb_eq in E. subst. exact Hy.
  - intro H. exists x. split; [exact H|apply str_eqb_refl].
Qed.
Lemma add_footnote_numbered ix seen x : numbered ix seen -> numbered (add_footnote ix x) (add_seen seen x).
Proof.
  intros [H1 H2]. unfold add_footnote, add_seen. rewrite H1.
  destruct (existsb (str_eqb x) seen) eqn:E.
  - apply existsb_In in E. destruct (position x seen) eqn:P; [split; assumption|].
    apply position_none in P. contradiction.
  - assert (~ In x seen) as Hn by (rewrite <- existsb_In; congruence).
    apply position_none in Hn. rewrite Hn. split; cbn [footnote_indices last_footnote_index map_insert map_get].
    + intro y. rewrite position_app. cbn [position]. destruct (str_eqb y x) eqn:Y.
      * apply str_eqb_eq in Y. subst y. rewrite Hn. cbn. f_equal. exact H2.
      * rewrite H1. destruct (position y seen); reflexivity.
    + rewrite app_length. cbn. lia.
Qed.
Lemma add_footnote_defs ix x : link_definitions (add_footnote ix x) = link_definitions ix.
Proof. unfold add_footnote. destruct (map_get _ _ _); reflexivity. Qed.
Lemma inlines_numbered l : forall ix seen, numbered ix seen ->
  numbered (get_inlines_indicies ix l) (fold_left add_seen (inline_refs l) seen) /\
  link_definitions (get_inlines_indicies ix l) = link_definitions ix.
Proof.
  induction l as [|i l IH]; intros ix seen H; [split; [exact H|reflexivity]|].
  unfold get_inlines_indicies, inline_refs in *. cbn [fold_left flat_map].
  destruct i; cbn [get_inline_indicies app]; try (apply IH; exact H).
  destruct (IH _ _ (add_footnote_numbered ix seen label H)) as [IH1 IH2].
  split; [exact IH1|]. etransitivity; [apply IH2|apply add_footnote_defs].
Qed.
Definition own_defs (b : block) : list link_definition := match b with BDefinition x => [x] | _ => [] end.
Lemma own_numbered b ix seen : numbered ix seen ->
  numbered (own ix b) (fold_left add_seen (inline_refs (block_inlines b)) seen) /\
  link_definitions (own ix b) = map (fun x => (ld_label x, x)) (rev (own_defs b)) ++ link_definitions ix.
Proof.
  intro H.
  destruct b; cbn [own block_inlines own_defs rev map app]; try (apply inlines_numbered; exact H).
Qed.
Lemma own_fold_numbered l : forall ix seen, numbered ix seen ->
  numbered (fold_left own l ix) (fold_left add_seen (flat_map (fun b => inline_refs (block_inlines b)) l) seen) /\
  link_definitions (fold_left own l ix) =
    map (fun x => (ld_label x, x)) (rev (flat_map own_defs l)) ++ link_definitions ix.
Proof.
  induction l as [|b l IH]; intros ix seen H; [split; [exact H|reflexivity]|].
  cbn [fold_left flat_map]. rewrite fold_left_app. destruct (own_numbered b ix seen H) as [H1 H2].
  destruct (IH _ _ H1) as [H3 H4]. split; [exact H3|].
  rewrite H4, H2, rev_app_distr, map_app, app_assoc. reflexivity.
Qed.
(* first occurrences *)
Lemma fold_add_seen l : forall seen,
  fold_left add_seen l seen = seen ++ filter (fun y => negb (existsb (str_eqb y) seen)) (first_occurrences l).
Proof.
  induction l as [|x l IH]; intro seen; cbn [fold_left first_occurrences filter]; [rewrite app_nil_r; reflexivity|].
  rewrite IH. unfold add_seen. destruct (existsb (str_eqb x) seen) eqn:E; cbn [negb].
  - f_equal.
    clear IH. induction (first_occurrences l) as [|y m IHm]; cbn; [reflexivity|].
    destruct (str_eqb y x) eqn:Y; cbn.
    + apply str_eqb_eq in Y. subst. rewrite E. cbn. exact IHm.
    + destruct (negb (existsb (str_eqb y) seen)); [f_equal|]; exact IHm.
  - rewrite <- app_assoc. f_equal. cbn [app]. f_equal.
    clear IH. induction (first_occurrences l) as [|y m IHm]; cbn; [reflexivity|].
    rewrite existsb_app. cbn [existsb]. rewrite orb_false_r.
    destruct (str_eqb y x) eqn:Y; cbn.
    + rewrite orb_true_r. cbn. exact IHm.
    + rewrite orb_false_r. destruct (negb (existsb (str_eqb y) seen)); [f_equal|]; exact IHm.
Qed.
Lemma filter_true {A} (l : list A) : filter (fun _ => true) l = l.
Proof. induction l; cbn; congruence. Qed.
Lemma get_footnote_index_eq cfg d x : get_footnote_index (html_state_new cfg d) x = footnote_number d x.
Proof.
  unfold get_footnote_index, html_state_new; cbn [hs_index]. rewrite get_indicies_own.
  assert (H0 : numbered index_new []) by (split; [intro; reflexivity|reflexivity]).
  destruct (own_fold_numbered (doc_blocks d) _ _ H0) as [[H _] _]. rewrite H, fold_add_seen. cbn [app].
  unfold footnote_number, direct_refs. f_equal. apply filter_true.
Qed.
Lemma get_link_definition_eq cfg d l : get_link_definition (html_state_new cfg d) l = resolve d l.
Proof.
  unfold get_link_definition, html_state_new; cbn [hs_index]. rewrite get_indicies_own.
  assert (H0 : numbered index_new []) by (split; [intro; reflexivity|reflexivity]).
  destruct (own_fold_numbered (doc_blocks d) _ _ H0) as [_ H]. rewrite H. cbn [link_definitions index_new].
  rewrite app_nil_r. unfold resolve, definitions. fold own_defs.
  clear H. induction (rev (flat_map own_defs (doc_blocks d))) as [|x r IH]; cbn; [reflexivity|].
  destruct (list_eqb inline_eqb l (ld_label x)); [reflexivity|exact IH].
Qed.
