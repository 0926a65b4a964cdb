(** Facts about the LaTeX printer model. *)
From Coq Require Import String.
From Verif Require Export SpecLatex HtmlFacts HtmlProps.
Import ListNotations.
Open Scope list_scope.

(** ** Documents whose only layout choice is [softline] *)
Fixpoint soft_of (d : doc) : option (list sch) :=
  match d with
  | DNil => Some []
  | DText s => Some (chs s)
  | DAppend a b => match soft_of a, soft_of b with Some x, Some y => Some (x ++ y) | _, _ => None end
  | DHardline => Some [Ch 10%N]
  | DGroup (DFlatAlt DHardline (DText [c])) => if N.eqb c 32 then Some [Soft] else None
  | _ => None
  end.
Definition cmd0 (c : cmd) : Prop := fst (fst c) = 0 /\ exists t, soft_of (snd c) = Some t.

Lemma layout_chs s x : layout (chs s) x <-> x = s.
Proof.
  split.
  - revert x. induction s; intros x H; inversion H; subst; auto. f_equal; auto. inversion H2; auto.
  - intros ->. induction s; constructor; auto. constructor.
Qed.
Lemma layout_app a b s : layout (a ++ b) s <-> exists x y, s = x ++ y /\ layout a x /\ layout b y.
Proof.
  split.
  - intro H. apply Forall2_app_inv_l in H as (x & y & H1 & H2 & E). eauto.
  - intros (x & y & -> & A & B). apply Forall2_app; auto.
Qed.

Section R.
Variable uw : str -> nat.
Variable w : nat.
Lemma fit_soft m d t pos : soft_of d = Some t -> fit uw w m d pos <> FPanic.
Proof.
  revert t pos. induction d; cbn [fit soft_of]; intros t pos E; try discriminate.
  - cbv zeta. destruct (w <? pos + text_len uw s); discriminate.
  - destruct (soft_of d1), (soft_of d2); try discriminate.
    specialize (IHd1 _ pos eq_refl). destruct (fit uw w m d1 pos); try congruence. eapply IHd2; eauto.
  - destruct d; try discriminate. destruct d1; try discriminate. destruct d2; try discriminate.
    cbn [fit]. cbv zeta. destruct m; try discriminate. destruct (w <? pos + text_len uw s); discriminate.
  - destruct m; discriminate.
Qed.
Lemma fit_rest_soft rest pos : Forall cmd0 rest -> fit_rest uw w rest pos <> FPanic.
Proof.
  intro R. revert pos. induction R as [|[[i m] d] l [_ [t E]] R IH]; cbn; intro pos; [discriminate|].
  pose proof (fit_soft Break d t pos E). destruct (fit uw w Break d pos); try congruence.
Qed.

Lemma best_soft : forall d t rest pos, soft_of d = Some t -> Forall cmd0 rest ->
  exists s p, best uw w 0 Break d rest pos = Some (s, p) /\ layout t s.
Proof.
  induction d; cbn [soft_of]; intros t rest pos E R; try discriminate.
  - injection E as <-. cbn. do 2 eexists. split; [reflexivity|constructor].
  - injection E as <-. cbn. do 2 eexists. split; [reflexivity|]. now apply layout_chs.
  - destruct (soft_of d1) eqn:E1; try discriminate. destruct (soft_of d2) eqn:E2; try discriminate.
    injection E as <-. cbn.
    destruct (IHd1 _ ((0, Break, d2) :: rest) pos eq_refl) as (s1 & p1 & -> & L1).
    { constructor; auto. split; [reflexivity|]. eexists; eassumption. }
    destruct (IHd2 _ rest p1 eq_refl R) as (s2 & p2 & -> & L2).
    do 2 eexists. split; [reflexivity|]. apply layout_app. eauto.
  - destruct d; try discriminate. destruct d1; try discriminate. destruct d2 as [|[|c [|]]| | | | | | |]; try discriminate.
    destruct (N.eqb_spec c 32); try discriminate. subst c. injection E as <-.
    assert (R0 : match rest with (i, _, _) :: _ => i | [] => 0 end = 0).
    { destruct R as [|[[i m] d] l [A _] _]; auto. }
    assert (NP : fitting uw w (DFlatAlt DHardline (DText [32%N])) rest pos <> FPanic).
    { unfold fitting. pose proof (fit_soft Flat (DText [32%N]) _ pos eq_refl).
      change (fit uw w Flat (DFlatAlt DHardline (DText [32%N])) pos) with (fit uw w Flat (DText [32%N]) pos).
      destruct (fit uw w Flat (DText [32%N]) pos); try congruence. now apply fit_rest_soft. }
    cbn [best]. match goal with |- context [match ?x with FNo => _ | _ => _ end] => change (x <> FPanic) in NP; destruct x end; try congruence; cbn [best].
    all: rewrite ?R0; do 2 eexists; (split; [reflexivity|]); repeat constructor.
  - injection E as <-. cbn.
    assert (R0 : match rest with (i, _, _) :: _ => i | [] => 0 end = 0).
    { destruct R as [|[[i m] d] l [A _] _]; auto. }
    rewrite R0. do 2 eexists; split; [reflexivity|]. repeat constructor.
Qed.
Lemma render_soft d t : soft_of d = Some t -> exists s, render uw w d = Some s /\ layout t s.
Proof.
  intro E. destruct (best_soft d t [] 0 E (Forall_nil _)) as (s & p & B & L).
  exists s. unfold render. rewrite B. auto.
Qed.
End R.

(** ** The printer's documents are soft, and their texts are the view *)
Lemma soft_append a b x y : soft_of a = Some x -> soft_of b = Some y -> soft_of (append a b) = Some (x ++ y).
Proof.
  intros A B.
  assert (N : soft_of (DAppend a b) = Some (x ++ y)) by (cbn [soft_of]; now rewrite A, B).
  destruct a; [cbn in A; injection A as <-; exact B|..].
  all: destruct b; try exact N; cbn in B; injection B as <-; rewrite app_nil_r; exact A.
Qed.
Lemma soft_concat_go l ts : Forall2 (fun d t => soft_of d = Some t) l ts ->
  forall a x, soft_of a = Some x -> soft_of (fold_left append l a) = Some (x ++ concat ts).
Proof.
  induction 1 as [|d t l ts H F IH]; cbn; intros a x A; [now rewrite app_nil_r|].
  rewrite (IH _ (x ++ t)); [now rewrite app_assoc|]. now apply soft_append.
Qed.
Lemma soft_concat l ts : Forall2 (fun d t => soft_of d = Some t) l ts -> soft_of (concat_docs l) = Some (concat ts).
Proof. intro H. exact (soft_concat_go l ts H DNil [] eq_refl). Qed.
Lemma soft_concat_map {A} (f : A -> doc) (g : A -> list sch) l : Forall (fun x => soft_of (f x) = Some (g x)) l ->
  soft_of (concat_docs (map f l)) = Some (flat_map g l).
Proof.
  intro H. rewrite flat_map_concat_map. apply soft_concat. induction H; constructor; auto.
Qed.
Lemma soft_softline : soft_of softline = Some [Soft].
Proof. reflexivity. Qed.
Lemma chs_app a b : chs (a ++ b) = chs a ++ chs b.
Proof. apply map_app. Qed.
Lemma soft_command n c t : soft_of c = Some t -> soft_of (command n c) = Some (chs (lit "\" ++ n) ++ braces t).
Proof.
  intro H. unfold command, braces, cs.
  erewrite soft_append; [|erewrite soft_append; [|erewrite soft_append; reflexivity|eassumption]; reflexivity|reflexivity].
  now rewrite <- !app_assoc.
Qed.
Lemma soft_join l ts : Forall2 (fun d t => soft_of d = Some t) l ts -> soft_of (join_blocks l) = Some (sep_by (nl ++ nl) ts).
Proof.
  intro H. destruct H as [|d t l ts H F]; [reflexivity|]. cbn [join_blocks].
  assert (G : forall l ts, Forall2 (fun d t => soft_of d = Some t) l ts -> forall a x, soft_of a = Some x ->
     soft_of (fold_left (fun acc x => append (append (append acc DHardline) DHardline) x) l a) = Some (sep_by (nl ++ nl) (x :: ts))).
  { clear. induction 1 as [|d t l ts H F IH]; intros a x A; [exact A|]. cbn [fold_left].
    rewrite (IH _ (x ++ (nl ++ nl) ++ t)).
    - f_equal. destruct ts; cbn [sep_by]; rewrite <- !app_assoc; reflexivity.
    - rewrite app_assoc. apply soft_append; auto. rewrite app_assoc. repeat apply soft_append; auto. }
  apply (G _ _ F). exact H.
Qed.
Lemma soft_join_map {A} (f : A -> doc) g l : Forall (fun x => soft_of (f x) = Some (g x)) l ->
  soft_of (join_blocks (map f l)) = Some (sep_by (nl ++ nl) (map g l)).
Proof. intro H. apply soft_join. induction H; constructor; auto. Qed.
Definition opt_tex (o : option str) : list sch := match o with Some x => chs (lit "[" ++ x ++ lit "]") | None => [] end.
Lemma soft_environment n o c t : soft_of c = Some t ->
  soft_of (environment (lit n) o c) = Some (env_ n (opt_tex o) t).
Proof.
  intro H. unfold environment, env_. destruct o; cbn [opt_tex].
  all: etransitivity; [repeat first [eapply soft_append | eassumption | reflexivity]|].
  all: f_equal; unfold env_begin, env_end, nl; rewrite ?chs_app; rewrite <- ?app_assoc; reflexivity.
Qed.

(** *** Text *)
Lemma ws_nl c : is_whitespace (if N.eqb c c_nl then c_sp else c) = is_whitespace c.
Proof. destruct (N.eqb_spec c c_nl); [subst; reflexivity|reflexivity]. Qed.
Lemma esc_ws c : is_whitespace c = true -> escape_latex_char c = [c].
Proof.
  intro H. unfold escape_latex_char.
  repeat (match goal with |- context [N.eqb c ?k] => destruct (N.eqb_spec c k); [subst c; discriminate H|] end). reflexivity.
Qed.
Lemma trim_start_nil p s : trim_start_by p s = [] <-> forallb p s = true.
Proof. induction s; cbn; [tauto|]. destruct (p a); cbn; auto. split; discriminate. Qed.
Lemma trim_end_nil p s : trim_end_by p s = [] <-> forallb p s = true.
Proof.
  induction s; cbn; [tauto|]. destruct (trim_end_by p s).
  - destruct (p a); cbn; [tauto|split; discriminate].
  - split; [discriminate|]. intro H. apply andb_prop in H as [_ H]. now apply IHs in H.
Qed.
Lemma trim_start_hd p s : match trim_start_by p s with [] => True | c :: _ => p c = false end.
Proof. induction s; cbn; auto. destruct (p a) eqn:E; auto. Qed.
Lemma trim_nil s : trim s = [] <-> forallb is_whitespace s = true.
Proof.
  unfold trim, trim_end, trim_start. rewrite trim_end_nil.
  pose proof (trim_start_hd is_whitespace s). rewrite <- (trim_start_nil is_whitespace s).
  destruct (trim_start_by is_whitespace s); [tauto|]. cbn. rewrite H. cbn. split; discriminate.
Qed.
Lemma forallb_ws_nl s : forallb is_whitespace (nl_to_sp s) = forallb is_whitespace s.
Proof. induction s as [|c s IH]; cbn; auto. rewrite ws_nl. f_equal; auto. Qed.

Definition piece (v : option str) : list sch := match v with Some w => chs (escape_latex w) | None => [Soft] end.
Definition flow_pieces (l : list (option str)) : list sch := flat_map piece l.
Lemma flow_pieces_app a b : flow_pieces (a ++ b) = flow_pieces a ++ flow_pieces b.
Proof. apply flat_map_app. Qed.
(** [flow] with the last emitted item being white space or not *)
Fixpoint flow' (prev : bool) (s : str) : list sch :=
  match s with
  | [] => []
  | c :: s' => if is_whitespace c then (if prev then [] else [Soft]) ++ flow' true s'
               else chs (escape_latex_char c) ++ flow' false s'
  end.
Lemma flow'_eq s : flow s = flow' false s /\ (match s with c :: _ => is_whitespace c | [] => false end = true -> flow s = Soft :: flow' true s)
  /\ (match s with c :: _ => is_whitespace c | [] => false end = false -> flow s = flow' true s).
Proof.
  induction s as [|c s (IH1 & IH2 & IH3)]; [cbn; repeat split; discriminate|].
  cbn [flow flow']. destruct (is_whitespace c) eqn:W.
  - destruct s as [|d s]; [repeat split; try discriminate; reflexivity|].
    destruct (is_whitespace d) eqn:D.
    + rewrite IH2 by reflexivity. repeat split; try discriminate.
    + rewrite IH3 by reflexivity. repeat split; try discriminate.
  - rewrite IH1. repeat split; try discriminate.
Qed.
Definition last_space (r : list (option str)) : bool := match r with None :: _ => true | _ => false end.
Lemma split_spaces_go_flow s : forall cur r,
  flow_pieces (rev (split_spaces_go s cur r)) =
    flow_pieces (rev r) ++ match cur with Some w => chs (escape_latex (rev w)) ++ flow' false s | None => flow' (last_space r) s end.
Proof.
  assert (ER : forall c w, escape_latex (rev (c :: w)) = escape_latex (rev w) ++ escape_latex_char c).
  { intros. cbn [rev]. unfold escape_latex. rewrite flat_map_app. cbn. now rewrite app_nil_r. }
  assert (S1 : forall x r, flow_pieces (rev (x :: r)) = flow_pieces (rev r) ++ piece x).
  { intros. cbn [rev]. rewrite flow_pieces_app. f_equal. cbn. apply app_nil_r. }
  induction s as [|c s IH]; intros cur r; cbn [split_spaces_go flow'].
  - destruct cur; [rewrite S1; cbn [piece]; now rewrite app_nil_r|now rewrite app_nil_r].
  - destruct (is_whitespace c).
    + rewrite IH. destruct cur as [w|].
      * cbn [last_space]. rewrite !S1. cbn [piece]. now rewrite <- !app_assoc.
      * destruct r as [|[w|] r]; cbn [last_space]; rewrite ?S1; cbn [piece]; rewrite <- ?app_assoc; reflexivity.
    + rewrite IH. destruct cur as [w|].
      * rewrite ER, chs_app. now rewrite <- !app_assoc.
      * cbn [rev app]. unfold escape_latex at 1. cbn [flat_map]. rewrite app_nil_r. destruct r as [|[w|] r]; reflexivity.
Qed.
Lemma flow_nl s : flow (nl_to_sp s) = flow s.
Proof.
  rewrite !(proj1 (flow'_eq _)). generalize false. induction s as [|c s IH]; intro p; [reflexivity|].
  cbn [nl_to_sp map flow']. fold (nl_to_sp s). rewrite ws_nl. destruct (is_whitespace c) eqn:W; rewrite IH; auto.
  destruct (N.eqb_spec c c_nl); [subst; discriminate|reflexivity].
Qed.
Lemma soft_text s : soft_of (ltext_to_doc s) =
  Some (if forallb is_whitespace s then chs (map (fun c => if N.eqb c 10 then 32%N else c) s) else flow s).
Proof.
  unfold ltext_to_doc. destruct (forallb is_whitespace s) eqn:W.
  - assert (T : trim (nl_to_sp s) = []) by (apply trim_nil; now rewrite forallb_ws_nl). rewrite T.
    cbn [soft_of]. do 2 f_equal. unfold escape_latex, nl_to_sp.
    change c_nl with 10%N; change c_sp with 32%N.
    induction s as [|c s IH]; [reflexivity|]. cbn in W |- *. apply andb_prop in W as [W1 W2].
    rewrite esc_ws by (change (is_whitespace (if N.eqb c c_nl then c_sp else c) = true); now rewrite ws_nl).
    rewrite IH; auto.
    apply trim_nil. now rewrite forallb_ws_nl.
  - assert (T : trim (nl_to_sp s) <> []) by (intro H; apply trim_nil in H; rewrite forallb_ws_nl in H; congruence).
    destruct (trim (nl_to_sp s)) eqn:Tr; [congruence|]. clear T Tr.
    erewrite (soft_concat_map _ piece).
    2: { apply Forall_forall. intros [w|] _; reflexivity. }
    unfold split_with_spaces. change (flat_map piece ?l) with (flow_pieces l).
    rewrite split_spaces_go_flow. cbn [flow_pieces flat_map rev app last_space].
    rewrite <- (proj1 (flow'_eq _)), flow_nl. reflexivity.
Qed.

Ltac soft := repeat first
  [ eapply soft_append | apply soft_command | eassumption | reflexivity ].

Section Doc.
Variable st : latex_state.
Let num := l_footnote_index st.
Let def := l_link_definition st.
Let cfg := ls_config st.

Lemma soft_href url text t : soft_of text = Some t ->
  soft_of (append (append (append (command (lit "href") (DText (escape_latex url))) (DText (lit "{"))) text) (DText (lit "}")))
  = Some (cmd_ "href" (esc url) ++ braces t).
Proof.
  intro H. etransitivity; [soft|]. f_equal. unfold cmd_, braces, cs, esc. rewrite chs_app. rewrite <- !app_assoc. reflexivity.
Qed.
Lemma soft_cmd n c t : soft_of c = Some t -> soft_of (command (lit n) c) = Some (cmd_ n t).
Proof. intro H. rewrite (soft_command _ _ _ H), chs_app, <- app_assoc. reflexivity. Qed.

Lemma soft_inline : forall i, soft_of (linline_to_doc st i) = Some (tex_inline num def i).
Proof.
  induction i using inline_ind'; cbn [linline_to_doc tex_inline link_title link_destination link_children lr_label lr_text].
  - apply soft_text.
  - reflexivity.
  - now apply soft_cmd.
  - reflexivity.
  - pose proof (soft_concat_map _ _ _ H) as HC.
    destruct t.
    + etransitivity; [eapply soft_append; [eapply soft_href; exact HC|apply (soft_cmd "footnote"); reflexivity]|].
      rewrite <- app_assoc. reflexivity.
    + rewrite (soft_href _ _ _ HC). now rewrite app_nil_r.
  - pose proof (soft_concat_map _ _ _ H) as HL. pose proof (soft_concat_map _ _ _ H0) as HT.
    unfold def. destruct (l_link_definition st l).
    + now apply soft_href.
    + etransitivity; [soft|]. unfold cs. rewrite <- !app_assoc. reflexivity.
  - destruct im as [dst ti alt]. cbn [image_alt image_destination].
    assert (A : soft_of (append (append (append (command (lit "includegraphics") DNil) (DText (lit "{"))) (DText (escape_latex dst))) (DText (lit "}")))
        = Some (cs "\includegraphics{}" ++ braces (esc dst))).
    { etransitivity; [soft|]. rewrite <- !app_assoc. reflexivity. }
    destruct alt; [now rewrite app_nil_r|].
    etransitivity; [eapply soft_append; [exact A|apply (soft_cmd "caption"); reflexivity]|]. now rewrite <- app_assoc.
  - apply (soft_cmd "textit"). now apply soft_concat_map.
  - apply (soft_cmd "textbf"). now apply soft_concat_map.
  - apply (soft_cmd "sout"). now apply soft_concat_map.
  - now apply (soft_cmd "url").
  - unfold num. destruct (l_footnote_index st s).
    + now apply (soft_cmd "footnotemark").
    + etransitivity; [soft|]. now rewrite <- !app_assoc.
  - reflexivity.
Qed.
Lemma soft_inlines l : soft_of (linlines_to_doc st l) = Some (tex_inlines num def l).
Proof. apply soft_concat_map. apply Forall_forall. intros. apply soft_inline. Qed.

Lemma soft_code c : soft_of (render_code_block st c) = Some (tex_code cfg c).
Proof.
  unfold render_code_block, tex_code, cfg. destruct c as [k s]. cbn [cb_kind cb_literal].
  destruct (lc_code_block_style (ls_config st)).
  - now apply (soft_environment "verbatim" None).
  - rewrite (soft_environment "lstlisting" _ _ (chs s)) by reflexivity. destruct k as [|[l|]]; reflexivity.
  - etransitivity; [soft|]. unfold env_, braces, env_begin, env_end, nl, cs.
    destruct k as [|[l|]]; rewrite ?chs_app, <- ?app_assoc; reflexivity.
Qed.
Lemma soft_row r : soft_of (render_table_row st r) = Some (tex_row num def r).
Proof.
  unfold render_table_row, tex_row. eapply soft_append; [|reflexivity].
  destruct r as [|c r]; [reflexivity|]. cbn [map].
  assert (G : forall r a x, soft_of a = Some x ->
    soft_of (fold_left (fun acc cell => append (append acc (DText (lit " & "))) (linlines_to_doc st cell)) r a)
    = Some (sep_by (cs " & ") (x :: map (tex_inlines num def) r))).
  { clear. induction r as [|c r IH]; intros a x A; [exact A|]. cbn [fold_left map].
    rewrite (IH _ (x ++ cs " & " ++ tex_inlines num def c)).
    - destruct r; cbn [map sep_by]; rewrite <- ?app_assoc; reflexivity.
    - rewrite app_assoc. apply soft_append; [now apply soft_append|apply soft_inlines]. }
  apply G. apply soft_inlines.
Qed.
Lemma spec_eq al : create_column_spec al = columns al.
Proof. unfold create_column_spec, columns. induction al as [|[] al IH]; cbn; f_equal; auto. Qed.
Lemma soft_table t : soft_of (render_table st t) = Some (tex_table cfg num def t).
Proof.
  destruct t as [rows al]. unfold render_table, tex_table. cbn [t_rows t_alignments]. rewrite spec_eq.
  assert (D : forall tail tl rs a x, soft_of tail = Some tl -> soft_of a = Some x ->
    soft_of (fold_left (fun acc row => append (append (append acc (render_table_row st row)) tail) DHardline) rs a)
    = Some (x ++ flat_map (fun r => tex_row num def r ++ tl ++ nl) rs)).
  { intros tail tl rs. induction rs as [|r rs IH]; intros a x T A; cbn [fold_left flat_map]; [now rewrite app_nil_r|].
    erewrite IH; [|eassumption|].
    2: { eapply soft_append; [eapply soft_append; [eapply soft_append; [eassumption|apply soft_row]|eassumption]|reflexivity]. }
    now rewrite <- !app_assoc. }
  assert (Hd : forall rule a x r, soft_of a = Some x ->
     soft_of (append (append (append (append a (render_table_row st r)) DHardline) (DText (lit rule))) DHardline)
     = Some (x ++ tex_row num def r ++ nl ++ cs rule ++ nl)).
  { intros. etransitivity; [eapply soft_append; [eapply soft_append; [eapply soft_append; [eapply soft_append; [eassumption|apply soft_row]|]|]|]; reflexivity|].
    now rewrite <- !app_assoc. }
  unfold cfg. destruct (lc_table_style (ls_config st)).
  - apply (soft_environment "tabular" (Some _)). destruct rows as [|r rows]; [reflexivity|]. cbn [skipn].
    erewrite D; [|reflexivity|apply Hd; reflexivity]. now rewrite <- !app_assoc.
  - assert (G : forall o a x, soft_of a = Some x -> soft_of (environment (lit "longtabu") (Some o) a) = Some (env_ "longtabu" (opt_tex (Some o)) x))
      by (intros; now apply soft_environment).
    destruct rows as [|r rows]; cbn [skipn].
    + etransitivity; [apply G; reflexivity|]. unfold opt_tex. rewrite <- !app_assoc. reflexivity.
    + etransitivity; [apply G; erewrite D; [|reflexivity|apply Hd; reflexivity]; reflexivity|].
      unfold opt_tex. cbn [app]. rewrite <- !app_assoc. reflexivity.
  - apply (soft_environment "tabular" (Some _)). destruct rows as [|r rows]; [reflexivity|]. cbn [skipn].
    etransitivity; [eapply soft_append; [|reflexivity]|].
    + erewrite D; [|reflexivity|apply Hd; reflexivity]. reflexivity.
    + cbn [app]. rewrite <- ?app_assoc. reflexivity.
Qed.

Lemma soft_checkbox t : soft_of (checkbox t) = Some (match t with
  | Some Complete => cs "$\boxtimes$ " | Some Incomplete => cs "$\square$ " | None => [] end).
Proof. destruct t as [[]|]; reflexivity. Qed.
Lemma section_eq k : section_name k = lit (section_ k).
Proof.
  unfold section_name, section_. destruct k as [n|[]]; try reflexivity.
  destruct (N.eqb n 1), (N.eqb n 2), (N.eqb n 3), (N.eqb n 4); reflexivity.
Qed.
Lemma soft_block : forall b, soft_of (lblock_to_doc st b) = Some (tex_block cfg num def b).
Proof.
  induction b using block_ind'; cbn [lblock_to_doc tex_block l_kind l_items fd_label fd_blocks ga_type ga_blocks].
  - apply soft_inlines.
  - rewrite section_eq. apply soft_cmd, soft_inlines.
  - now apply (soft_cmd "hrule").
  - apply (soft_environment "quote" None). now apply soft_join_map.
  - assert (G : soft_of (concat_docs (map (fun it => append (append (append (DText (lit "\item ")) (checkbox (li_task it)))
         (join_blocks (map (lblock_to_doc st) (li_blocks it)))) DHardline) items)) =
      Some (flat_map (fun it => cs "\item " ++ match li_task it with
             | Some Complete => cs "$\boxtimes$ " | Some Incomplete => cs "$\square$ " | None => [] end ++
           sep_by (nl ++ nl) (map (tex_block cfg num def) (li_blocks it)) ++ nl) items)).
    { apply soft_concat_map. eapply Forall_impl; [|exact H]. intros it Hi.
      etransitivity; [eapply soft_append; [eapply soft_append; [eapply soft_append; [reflexivity|apply soft_checkbox]|apply soft_join_map; exact Hi]|reflexivity]|].
      now rewrite <- !app_assoc. }
    destruct k; [exact (soft_environment "enumerate" None _ _ G)|exact (soft_environment "itemize" None _ _ G)].
  - apply soft_code.
  - reflexivity.
  - reflexivity.
  - apply soft_table.
  - fold num. destruct (num l); [|reflexivity]. apply (soft_cmd "footnotetext").
    eapply soft_append; [reflexivity|now apply soft_join_map].
  - apply (soft_cmd "footnote"). etransitivity; [eapply soft_append; [reflexivity|apply soft_join_map; exact H]|].
    destruct t; cbn [latex_alert_type alert_name]; rewrite ?chs_app, <- ?app_assoc; reflexivity.
  - reflexivity.
Qed.
End Doc.

(** ** The indices *)
Definition lstep (ix : lindex) (b : block) : lindex :=
  match b with
  | BFootnoteDefinition def =>
      LIndex (map_insert (fd_label def) (li_counter ix) (li_footnotes ix)) (li_definitions ix) (li_counter ix + 1)
  | BDefinition def =>
      LIndex (li_footnotes ix) (map_insert (ld_label def) def (li_definitions ix)) (li_counter ix)
  | _ => ix
  end.
Lemma fold_left_flat {A B S} (f : S -> A -> S) (g : S -> B -> S) (h : B -> list A) l :
  Forall (fun b => forall s, g s b = fold_left f (h b) s) l -> forall s, fold_left g l s = fold_left f (flat_map h l) s.
Proof. induction 1 as [|b l H F IH]; intro s; [reflexivity|]. cbn. rewrite fold_left_app, <- H. apply IH. Qed.
Lemma process_outer : forall b ix, process_block ix b = fold_left lstep (outer b) ix.
Proof.
  induction b using block_ind'; intro ix; try reflexivity; cbn [process_block outer fold_left lstep l_items ga_blocks].
  - now apply fold_left_flat.
  - apply fold_left_flat. eapply Forall_impl; [|exact H]. intros it Hi ix'. now apply fold_left_flat.
  - now apply fold_left_flat.
Qed.
Lemma get_indices_outer d : get_indices d = fold_left lstep (outer_blocks d) (LIndex [] [] 1).
Proof. apply fold_left_flat. apply Forall_forall. intros b _. apply process_outer. Qed.

Definition labels_of (l : list block) : list str :=
  flat_map (fun b => match b with BFootnoteDefinition f => [fd_label f] | _ => [] end) l.
Definition defs_of (l : list block) : list link_definition :=
  flat_map (fun b => match b with BDefinition x => [x] | _ => [] end) l.
Lemma last_position_snoc x l y : last_position x (l ++ [y]) =
  if str_eqb x y then Some (N.of_nat (length l) + 1)%N else last_position x l.
Proof.
  induction l as [|z l IH]; cbn [app last_position length].
  - now destruct (str_eqb x y).
  - rewrite IH. destruct (str_eqb x y); [f_equal; lia|reflexivity].
Qed.
Lemma index_inv l : let ix := fold_left lstep l (LIndex [] [] 1) in
  (forall x, map_get str_eqb x (li_footnotes ix) = last_position x (labels_of l)) /\
  (forall x, map_get (list_eqb inline_eqb) x (li_definitions ix) =
             find (fun y => list_eqb inline_eqb x (ld_label y)) (rev (defs_of l))) /\
  li_counter ix = (N.of_nat (length (labels_of l)) + 1)%N.
Proof.
  induction l as [|b l IH] using rev_ind; [cbn; auto|].
  rewrite fold_left_app. cbn [fold_left]. destruct IH as (F & D & C).
  set (ix := fold_left lstep l (LIndex [] [] 1)) in *. cbv zeta.
  unfold labels_of, defs_of. rewrite !flat_map_app. fold (labels_of l) (defs_of l).
  destruct b; cbn [lstep flat_map app li_footnotes li_definitions li_counter]; rewrite ?app_nil_r; auto.
  - split; [exact F|]. split; [|exact C]. intro x. rewrite rev_app_distr. cbn [map_insert map_get rev app find].
    rewrite D. reflexivity.
  - split; [|split; [exact D|]].
    + intro x. rewrite last_position_snoc. cbn [map_insert map_get]. rewrite F, C. reflexivity.
    + rewrite C, app_length. cbn [length]. lia.
Qed.
Lemma tex_number_eq cfg d x : l_footnote_index (latex_state_new cfg d) x = tex_number d x.
Proof.
  unfold l_footnote_index, latex_state_new, tex_number. cbn [ls_index]. rewrite get_indices_outer.
  apply (proj1 (index_inv (outer_blocks d))).
Qed.
Lemma tex_resolve_eq cfg d x : l_link_definition (latex_state_new cfg d) x = tex_resolve d x.
Proof.
  unfold l_link_definition, latex_state_new, tex_resolve. cbn [ls_index]. rewrite get_indices_outer.
  apply (proj1 (proj2 (index_inv (outer_blocks d)))).
Qed.

(** the view only depends on the values of [num] and [def] *)
Lemma flat_map_ext_F {A B} (f g : A -> list B) l : Forall (fun x => f x = g x) l -> flat_map f l = flat_map g l.
Proof. induction 1 as [|x l H F IH]; cbn; [reflexivity|]. now rewrite H, IH. Qed.
Section Ext.
Variables (n1 n2 : str -> option N) (d1 d2 : list inline -> option link_definition) (cfg : latex_config).
Hypothesis Hn : forall x, n1 x = n2 x.
Hypothesis Hd : forall x, d1 x = d2 x.
Lemma tex_inline_ext i : tex_inline n1 d1 i = tex_inline n2 d2 i.
Proof.
  induction i using inline_ind'; cbn [tex_inline link_destination link_title link_children lr_label lr_text]; try reflexivity.
  all: rewrite <- ?Hn, <- ?Hd.
  all: repeat match goal with H : Forall _ _ |- _ => apply flat_map_ext_F in H; try rewrite H; clear H end; reflexivity.
Qed.
Lemma tex_inlines_ext l : tex_inlines n1 d1 l = tex_inlines n2 d2 l.
Proof. apply flat_map_ext. apply tex_inline_ext. Qed.
Lemma tex_row_ext r : tex_row n1 d1 r = tex_row n2 d2 r.
Proof. unfold tex_row. do 2 f_equal. apply map_ext. apply tex_inlines_ext. Qed.
Lemma map_ext_F {A B} (f g : A -> B) l : Forall (fun x => f x = g x) l -> map f l = map g l.
Proof. apply map_ext_Forall. Qed.
Lemma tex_block_ext b : tex_block cfg n1 d1 b = tex_block cfg n2 d2 b.
Proof.
  induction b using block_ind'; cbn [tex_block l_kind l_items fd_label fd_blocks ga_type ga_blocks]; try reflexivity.
  - apply tex_inlines_ext.
  - now rewrite tex_inlines_ext.
  - now rewrite (map_ext_F _ _ _ H).
  - f_equal. apply flat_map_ext_F. eapply Forall_impl; [|exact H]. intros it Hi. cbn beta. now rewrite (map_ext_F _ _ _ Hi).
  - unfold tex_table. destruct (t_rows t) as [|r rs].
    + reflexivity.
    + rewrite tex_row_ext.
      assert (E : forall tl : list sch, flat_map (fun r => tex_row n1 d1 r ++ tl ++ nl) rs = flat_map (fun r => tex_row n2 d2 r ++ tl ++ nl) rs)
        by (intro; apply flat_map_ext; intro; now rewrite tex_row_ext).
      now rewrite !E.
  - rewrite <- Hn. now rewrite (map_ext_F _ _ _ H).
  - now rewrite (map_ext_F _ _ _ H).
Qed.
End Ext.

Lemma render_latex_view uw d cfg : exists out, render_latex uw d cfg = Some out /\ layout (tex_view cfg d) out.
Proof.
  unfold render_latex, tex_view. apply render_soft.
  set (st := latex_state_new cfg d).
  rewrite (map_ext _ (tex_block cfg (l_footnote_index st) (l_link_definition st))).
  - apply (soft_join_map (lblock_to_doc st)). apply Forall_forall. intros b _. apply soft_block.
  - intro b. apply tex_block_ext; intro x; symmetry; [apply tex_number_eq|apply tex_resolve_eq].
Qed.
