(** Properties C32-C35 and C60: LaTeX rendering.  Specifications: SpecLatex.v
    (grammar [ltx] of well-formed LaTeX, [tex_view], [layout],
    [footnote_labels], [tex_number]).  [uw] is the display width function of
    the [unicode-width] crate: every theorem holds for any. *)
From Coq Require Import String List.
From Verif Require HtmlProps.
From Verif Require Import LatexProps Sample.
Import ListNotations.
Open Scope list_scope.

(** C32: escaped text is well-formed (so every special character in it is
    escaped and its braces balance), and the escaping can be undone. *)
Theorem C32_escape_well_formed : forall s, ltx false (escape_latex s).
Proof. exact (ltx_escape false). Qed.
Print Assumptions C32_escape_well_formed.
Theorem C32_escape_injective : forall a b, escape_latex a = escape_latex b -> a = b.
Proof. exact escape_latex_inj. Qed.
Print Assumptions C32_escape_injective.
(** what the grammar rules out: an unescaped special character *)
Example C32_grammar_strict : forall c, tex_special c = true -> ~ ltx false [c].
Proof.
  intros c H K. inversion K; subst; try discriminate; try congruence.
  - destruct n; [destruct H2; congruence|discriminate].
  - destruct a; discriminate.
Qed.
Example C32_example : escape_latex (lit "50% of {a_b} \ $x") = lit "50\% of \{a\_b\} \textbackslash{} \$x".
Proof. vm_compute. reflexivity. Qed.

(** C60: the output is the LaTeX view of the document; the printer's only
    freedom is to put a space or a newline where a text has white space. *)
Theorem C60_latex_view : forall uw d cfg, exists out,
  render_latex uw d cfg = Some out /\ layout (tex_view cfg d) out.
Proof. exact render_latex_view. Qed.
Print Assumptions C60_latex_view.
Example C60_example :
  let d := Document [BParagraph [IText (lit "a  b"); IStrong [IText (lit "c_d")]];
                     BList (MkList (Ordered 1) [ListItem (Some Complete) [BParagraph [IText (lit "x")]]])] in
  render_latex (@List.length _) d (LatexConfig 80 Tabular Verbatim) = Some (lit "a b\textbf{c\_d}

\begin{enumerate}
\item $\boxtimes$ x

\end{enumerate}") /\
  render_latex (@List.length _) d (LatexConfig 2 Tabular Verbatim) = Some (lit "a
b\textbf{c\_d}

\begin{enumerate}
\item $\boxtimes$ x

\end{enumerate}").
Proof. vm_compute. split; reflexivity. Qed.

(** C33 *)
Theorem C33_well_formed : forall uw d cfg, Forall (block_clean cfg) (doc_blocks d) -> refs_defined d ->
  exists out, render_latex uw d cfg = Some out /\ ltx false out.
Proof. exact render_latex_wf. Qed.
Print Assumptions C33_well_formed.
Example C33_example : Forall (block_clean (LatexConfig 40 Longtabu Minted)) (doc_blocks sample) /\ refs_defined sample.
Proof.
  split.
  - vm_compute. repeat constructor. intros (a & b & H). assert (L := f_equal (@List.length _) H).
    rewrite !app_length in L. cbn in L. lia.
  - intros x H. vm_compute in H. repeat (destruct H as [H|H]; [try discriminate; injection H as <-; now left|]). contradiction.
Qed.
(** Without the side conditions it fails: an undefined footnote reference
    prints a bare "^", and code containing the end of its environment ends it. *)
Lemma ltx_no_caret a s : ltx false (91%N :: 94%N :: a :: s) -> False.
Proof.
  intro K. inversion K; subst; try discriminate. clear K. inversion H3; subst; try discriminate.
Qed.
Theorem C33_undefined_footnote_refuted : exists d out,
  Forall (block_clean (LatexConfig 80 Tabular Verbatim)) (doc_blocks d) /\
  render_latex (@List.length _) d (LatexConfig 80 Tabular Verbatim) = Some out /\ ~ ltx false out.
Proof.
  exists (Document [BParagraph [IFootnoteReference (lit "x")]]), (lit "[^x]").
  split; [repeat constructor|]. split; [vm_compute; reflexivity|]. intro K. exact (ltx_no_caret _ _ K).
Qed.
Print Assumptions C33_undefined_footnote_refuted.
(** two different documents, one with a code block, one with a paragraph
    command taken from the code, come out the same *)
Theorem C33_code_breaks_out_refuted : exists code out,
  render_latex (@List.length _) (Document [BCodeBlock (CodeBlock Indented code)]) (LatexConfig 80 Tabular Verbatim) = Some out /\
  out = lit "\begin{verbatim}
\end{verbatim}" ++ lit "\input{x}" ++ lit "\begin{verbatim}
\end{verbatim}".
Proof.
  exists (lit "\end{verbatim}\input{x}\begin{verbatim}"). eexists. split; vm_compute; reflexivity.
Qed.
Print Assumptions C33_code_breaks_out_refuted.

(** C34 *)
Theorem C34_numbers : forall cfg d x n, l_footnote_index (latex_state_new cfg d) x = Some n <->
  exists pre post, footnote_labels d = pre ++ x :: post /\ ~ In x post /\ n = (N.of_nat (List.length pre) + 1)%N.
Proof. intros. rewrite tex_number_eq. apply last_position_spec. Qed.
Print Assumptions C34_numbers.
Theorem C34_numbered_iff_defined : forall cfg d x, l_footnote_index (latex_state_new cfg d) x <> None <-> In x (footnote_labels d).
Proof. intros. rewrite tex_number_eq. symmetry. apply last_position_in. Qed.
Print Assumptions C34_numbered_iff_defined.
Theorem C34_kth_definition : forall cfg d k x, NoDup (footnote_labels d) ->
  (nth_error (footnote_labels d) k = Some x <-> l_footnote_index (latex_state_new cfg d) x = Some (N.of_nat k + 1)%N).
Proof.
  intros cfg d k x D. rewrite tex_number_eq. unfold tex_number. rewrite last_position_spec. split.
  - intro H. destruct (nth_error_split _ _ H) as (pre & post & E & L). exists pre, post. split; [exact E|]. split.
    + rewrite E in D. apply NoDup_remove_2 in D. intro I. apply D. apply in_or_app. now right.
    + now rewrite L.
  - intros (pre & post & E & _ & L). assert (k = List.length pre) by lia. subst k. rewrite E.
    rewrite nth_error_app2 by lia. now rewrite Nat.sub_diag.
Qed.
Print Assumptions C34_kth_definition.
Theorem C34_distinct : forall cfg d x y n, l_footnote_index (latex_state_new cfg d) x = Some n ->
  l_footnote_index (latex_state_new cfg d) y = Some n -> x = y.
Proof.
  intros cfg d x y n. rewrite !C34_numbers. intros (p1 & q1 & E1 & _ & L1) (p2 & q2 & E2 & _ & L2).
  assert (L : List.length p1 = List.length p2) by lia. rewrite E1 in E2.
  apply (f_equal (fun l => nth_error l (List.length p1))) in E2.
  rewrite nth_error_app2, Nat.sub_diag in E2 by lia. rewrite nth_error_app2 in E2 by lia.
  rewrite L, Nat.sub_diag in E2. now injection E2.
Qed.
Print Assumptions C34_distinct.
Example C34_example :
  let fn l bs := BFootnoteDefinition (FootnoteDefinition (lit l) bs) in
  let d := Document [fn "b" [fn "inner" []]; BBlockQuote [BList (MkList (Bullet Dash) [ListItem None [fn "a" []]])]] in
  footnote_labels d = [lit "b"; lit "a"] /\ NoDup (footnote_labels d) /\
  l_footnote_index (latex_state_new (LatexConfig 80 Tabular Verbatim) d) (lit "a") = Some 2%N.
Proof.
  vm_compute. split; [reflexivity|]. split; [|reflexivity].
  apply NoDup_cons; [intros [H|H]; [discriminate H|exact H]|]. apply NoDup_cons; [intros []|constructor].
Qed.

(** In the output: a reference shows the number of its label's last
    definition, and the definition carries its own number. *)
Lemma layout_split a b o : layout (a ++ b) o -> exists x y, layout a x /\ layout b y /\ o = x ++ y.
Proof. intro H. apply Forall2_app_inv_l in H as (x & y & A & B & E). eauto. Qed.
Lemma layout_mid a t b o : layout (a ++ t ++ b) o -> exists x m y, layout t m /\ o = x ++ m ++ y.
Proof. intro H. apply layout_split in H as (x & r & _ & H & ->). apply layout_split in H as (m & y & H & _ & ->). eauto. Qed.
Lemma layout_fixed s o : layout (chs s) o -> o = s.
Proof.
  revert o. induction s as [|c s IH]; intros o H; inversion H as [|? ? ? ? H1 H2]; subst; [reflexivity|]. apply IH in H2. inversion H1; subst. reflexivity.
Qed.
Lemma sep_by_mid sep l x l' : exists a b, sep_by sep (l ++ x :: l') = a ++ x ++ b.
Proof.
  induction l as [|y l IH].
  - exists []. destruct l' as [|z l']; [exists []; cbn; now rewrite app_nil_r|]. exists (sep ++ sep_by sep (z :: l')). reflexivity.
  - destruct IH as (a & b & IH). exists (y ++ sep ++ a), b. change (sep_by sep ((y :: l) ++ x :: l')) with (match l ++ x :: l' with [] => y | _ => y ++ sep ++ sep_by sep (l ++ x :: l') end).
    rewrite IH. destruct (l ++ x :: l') eqn:E; [destruct l; discriminate|]. now rewrite <- !app_assoc.
Qed.
Lemma rendered_block uw cfg before b after out : let d := Document (before ++ b :: after) in
  render_latex uw d cfg = Some out -> exists x m y, layout (tex_block cfg (tex_number d) (tex_resolve d) b) m /\ out = x ++ m ++ y.
Proof.
  intros d E. destruct (render_latex_view uw d cfg) as (o & Eo & L). rewrite E in Eo. injection Eo as <-. unfold tex_view in L. unfold d at 3 in L. cbn [d_blocks] in L. rewrite map_app in L. cbn [map] in L.
  match type of L with layout (sep_by ?s (?l ++ ?x :: ?l')) _ => destruct (sep_by_mid s l x l') as (a & c & S) end. rewrite S in L. now apply layout_mid in L.
Qed.
Theorem C34_rendered_reference : forall uw cfg before xs label ys after out,
  let d := Document (before ++ BParagraph (xs ++ IFootnoteReference label :: ys) :: after) in
  render_latex uw d cfg = Some out ->
  exists a b, out = a ++
    match tex_number d label with
    | Some n => lit "\footnotemark{[" ++ dec n ++ lit "]}"
    | None => lit "[^" ++ escape_latex label ++ lit "]"
    end ++ b.
Proof.
  intros uw cfg before xs label ys after out d E. apply rendered_block in E as (x & m & y & L & ->). fold d in L. cbn [tex_block] in L. unfold tex_inlines in L. rewrite flat_map_app in L. cbn [flat_map] in L.
  apply layout_mid in L as (x' & m' & y' & L & ->). exists (x ++ x'), (y' ++ y). rewrite <- !app_assoc. f_equal. f_equal. f_equal.
  cbn [tex_inline] in L. destruct (tex_number d label) as [n|]; apply layout_fixed; [unfold cmd_, braces, cs in L|unfold cs, esc in L]; unfold chs in *; rewrite ?map_app in *; rewrite <- ?app_assoc in *; exact L.
Qed.
Print Assumptions C34_rendered_reference.
Theorem C34_rendered_definition : forall uw cfg before label bs after out,
  let d := Document (before ++ BFootnoteDefinition (FootnoteDefinition label bs) :: after) in
  render_latex uw d cfg = Some out ->
  exists a n inner b, tex_number d label = Some n /\ out = a ++ lit "\footnotetext{[" ++ dec n ++ lit "] " ++ inner ++ lit "}" ++ b.
Proof.
  intros uw cfg before label bs after out d E. apply rendered_block in E as (x & m & y & L & ->). fold d in L. cbn [tex_block fd_label fd_blocks] in L.
  assert (N : tex_number d label <> None).
  { apply last_position_in. unfold footnote_labels, outer_blocks, d. cbn [d_blocks]. rewrite !flat_map_app. cbn [flat_map outer app fd_label]. apply in_or_app. right. now left. }
  destruct (tex_number d label) as [n|]; [|contradiction]. unfold cmd_, braces, cs in L. rewrite <- !app_assoc in L.
  apply layout_split in L as (p & r & L1 & L & ->). apply layout_split in L as (p2 & r2 & L2 & L & ->). apply layout_split in L as (p3 & r3 & L3 & L & ->).
  apply layout_split in L as (p4 & r4 & L4 & L & ->). apply layout_split in L as (p5 & r5 & _ & L5 & ->).
  apply layout_fixed in L1, L2, L3, L4, L5. subst. exists x, n, p5, y. split; [reflexivity|]. rewrite <- !app_assoc. reflexivity.
Qed.
Print Assumptions C34_rendered_definition.
Example C34_rendered_example :
  let d := Document [BParagraph [IFootnoteReference (lit "b")]; BFootnoteDefinition (FootnoteDefinition (lit "a") []); BFootnoteDefinition (FootnoteDefinition (lit "b") [BParagraph [IText (lit "x")]])] in
  tex_number d (lit "b") = Some 2%N /\ exists out, render_latex (@List.length _) d (LatexConfig 80 Tabular Verbatim) = Some out /\ firstn 17 out = lit "\footnotemark{[2]".
Proof. split; [reflexivity|]. eexists. split; vm_compute; reflexivity. Qed.

(** A link reference in the output: [\href] to the destination of the last
    definition with that very label, if there is one outside footnotes. *)
Theorem C60_last_definition_wins : forall d l x, tex_resolve d l = Some x <->
  exists pre post, outer_definitions d = pre ++ x :: post /\ ld_label x = l /\ Forall (fun y => ld_label y <> l) post.
Proof.
  intros d l x. unfold tex_resolve. rewrite HtmlProps.find_rev_last. split; intros (pre & post & E & H1 & H2); exists pre, post; (split; [exact E|]).
  - apply HtmlProps.label_eqb_eq in H1. split; [auto|]. eapply Forall_impl; [|exact H2]. cbv beta. intros y Hy E'. symmetry in E'.
    apply HtmlProps.label_eqb_eq in E'. congruence.
  - split; [apply HtmlProps.label_eqb_eq; auto|]. eapply Forall_impl; [|exact H2]. cbv beta. intros y Hy.
    destruct (list_eqb inline_eqb l (ld_label y)) eqn:E'; [|reflexivity]. apply HtmlProps.label_eqb_eq in E'. congruence.
Qed.
Print Assumptions C60_last_definition_wins.
Theorem C60_rendered_reference : forall uw cfg before xs label s ys after out,
  let d := Document (before ++ BParagraph (xs ++ ILinkReference (LinkReference label [ICode s]) :: ys) :: after) in
  render_latex uw d cfg = Some out ->
  exists a b, out = a ++
    match tex_resolve d label with
    | Some x => lit "\href{" ++ escape_latex (ld_destination x) ++ lit "}{\texttt{" ++ escape_latex s ++ lit "}}" ++ b
    | None => lit "[\texttt{" ++ escape_latex s ++ lit "}][" ++ b
    end.
Proof.
  intros uw cfg before xs label s ys after out d E. apply rendered_block in E as (x & m & y & L & ->). fold d in L. cbn [tex_block] in L. unfold tex_inlines in L. rewrite flat_map_app in L. cbn [flat_map] in L.
  apply layout_mid in L as (x' & m' & y' & L & ->). exists (x ++ x').
  cbn [tex_inline lr_label lr_text flat_map] in L. destruct (tex_resolve d label) as [q|].
  - exists (y' ++ y). assert (M : m' = lit "\href{" ++ escape_latex (ld_destination q) ++ lit "}{\texttt{" ++ escape_latex s ++ lit "}}").
    { apply layout_fixed. unfold cmd_, braces, cs, esc in L. rewrite app_nil_r in L. unfold chs in *. rewrite ?map_app in *. repeat (rewrite <- ?app_assoc in *; cbn [lit list_ascii_of_string map app] in * ). exact L. }
    rewrite M. rewrite <- !app_assoc. reflexivity.
  - rewrite app_nil_r in L. unfold cmd_, braces, cs, esc in L. rewrite <- ?app_assoc in L.
    repeat match type of L with layout (chs _ ++ _) _ => apply layout_split in L as (? & ? & ?L & L & ->) end.
    apply layout_split in L as (p & r & _ & L & ->).
    repeat match goal with H : layout (chs _) _ |- _ => apply layout_fixed in H; subst end.
    exists (p ++ lit "]" ++ y' ++ y). rewrite <- !app_assoc. reflexivity.
Qed.
Print Assumptions C60_rendered_reference.
Example C60_rendered_example :
  let d := Document [BParagraph [ILinkReference (LinkReference [IText (lit "l")] [ICode (lit "a&b")])]; BDefinition (LinkDefinition [IText (lit "l")] (lit "u_v") None)] in
  render_latex (@List.length _) d (LatexConfig 80 Tabular Verbatim) = Some (lit "\href{u\_v}{\texttt{a\&b}}" ++ [10; 10]%N).
Proof. vm_compute. reflexivity. Qed.

(** C35: never panics, and two widths differ only in spaces against newlines. *)
Theorem C35_width : forall uw1 uw2 d c1 c2,
  lc_table_style c1 = lc_table_style c2 -> lc_code_block_style c1 = lc_code_block_style c2 ->
  exists o1 o2, render_latex uw1 d c1 = Some o1 /\ render_latex uw2 d c2 = Some o2 /\
    Forall2 (fun x y => x = y \/ (x = 32%N /\ y = 10%N) \/ (x = 10%N /\ y = 32%N)) o1 o2 /\
    filter (fun c => negb (N.eqb c 32 || N.eqb c 10)) o1 = filter (fun c => negb (N.eqb c 32 || N.eqb c 10)) o2.
Proof. exact width_only_whitespace. Qed.
Print Assumptions C35_width.
Example C35_example : exists o1 o2, render_latex (@List.length _) sample (LatexConfig 10 Tabular Verbatim) = Some o1 /\
  render_latex (@List.length _) sample (LatexConfig 200 Tabular Verbatim) = Some o2 /\ o1 <> o2.
Proof. do 2 eexists. split; [vm_compute; reflexivity|]. split; [vm_compute; reflexivity|]. discriminate. Qed.
