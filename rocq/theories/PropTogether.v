(** C95: the HTML and the LaTeX of documents put together.  Specification:
    SpecTogether.v.  (Markdown: C91.) *)
From Coq Require Import String List.
From Verif Require Import Chars HtmlPrinter LatexPrinter SpecTogether TogetherFacts.
Import ListNotations.
Open Scope list_scope.

(** If one of two documents neither refers to other parts nor defines anything,
    the HTML of both is the HTML of the first and that of the second, at any
    width; rendering panics exactly if it does for one of them. *)
Theorem C95_html : forall uwidth config a b, standalone a \/ standalone b ->
  render_html uwidth (Document (a ++ b)) config =
  match render_html uwidth (Document a) config, render_html uwidth (Document b) config with
  | Some o, Some o' => Some (o ++ o')
  | _, _ => None
  end.
Proof. intros. now rewrite html_together. Qed.
Print Assumptions C95_html.
(** The LaTeX has an empty line between them; the lines of neither part are
    filled differently. *)
Theorem C95_latex : forall uwidth config a b, a <> [] -> b <> [] -> standalone a \/ standalone b ->
  render_latex uwidth (Document (a ++ b)) config =
  match render_latex uwidth (Document a) config, render_latex uwidth (Document b) config with
  | Some o, Some o' => Some (o ++ [10%N; 10%N] ++ o')
  | _, _ => None
  end.
Proof. exact latex_together. Qed.
Print Assumptions C95_latex.
(** The condition is needed: definitions reach everywhere, *)
Theorem C95_definition_refuted : exists a b o o', 
  render_html (@List.length _) (Document [a]) (HtmlConfig 80 []) = Some o /\
  render_html (@List.length _) (Document [b]) (HtmlConfig 80 []) = Some o' /\
  render_html (@List.length _) (Document [a; b]) (HtmlConfig 80 []) <> Some (o ++ o').
Proof.
  exists (BParagraph [ILinkReference (LinkReference [IText (lit "a")] [IText (lit "a")])]), (BDefinition (LinkDefinition [IText (lit "a")] (lit "u") None)). do 2 eexists.
  split; [vm_compute; reflexivity|]. split; [vm_compute; reflexivity|]. vm_compute. discriminate.
Qed.
Print Assumptions C95_definition_refuted.
(** and footnotes are numbered through. *)
Example C95_footnotes : let f (x : string) := BParagraph [IFootnoteReference (lit x)] in exists o o',
  render_html (@List.length _) (Document [f "a"%string]) (HtmlConfig 80 []) = Some o /\
  render_html (@List.length _) (Document [f "b"%string]) (HtmlConfig 80 []) = Some o' /\
  render_html (@List.length _) (Document [f "a"%string; f "b"%string]) (HtmlConfig 80 []) <> Some (o ++ o').
Proof. do 2 eexists. split; [vm_compute; reflexivity|]. split; [vm_compute; reflexivity|]. vm_compute. discriminate. Qed.
Example C95_nonvacuous :
  let a := [BParagraph [IFootnoteReference (lit "x"); IText (lit " a b c d")]; BFootnoteDefinition (FootnoteDefinition (lit "x") [BThematicBreak])] in
  let b := [BList (MkList (Ordered 3) [ListItem None [BParagraph [IText (lit "e f"); IStrong [IText (lit "g")]]]]); BBlockQuote [BParagraph [IText (lit "h i")]]] in
  standalone b /\ ~ standalone a /\ exists o, render_latex (@List.length _) (Document b) (LatexConfig 4 Tabular Verbatim) = Some o /\ List.length o = 85.
Proof.
  cbv zeta. split; [split; repeat constructor|]. split; [intros [H _]; inversion H as [|? ? _ H1]; inversion H1; contradiction|]. eexists. split; vm_compute; reflexivity.
Qed.
