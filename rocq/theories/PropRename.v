(** Property C104: labels are only names.  Specification: SpecRename.v
    ([rename], [one_to_one], [keeps_notes], [defined]). *)
From Coq Require Import String List.
From Verif Require Import Ast SpecAst SpecFormat SpecRename RenameFacts HtmlPrinter LatexPrinter.
Import ListNotations.
Open Scope list_scope.

(** The labels of footnotes and of link references are not shown and not
    interpreted: replacing them consistently, different ones by different ones,
    does not change the HTML at all ... *)
Theorem C104_html : forall uw f g d cfg, one_to_one (note_label d) f -> one_to_one (link_label d) g -> keeps_notes f g d ->
  render_html uw (rename f g d) cfg = render_html uw d cfg.
Proof. exact html_rename. Qed.
Print Assumptions C104_html.
(** ... nor the LaTeX, if every reference is defined (others are shown with
    their labels), up to line breaks. *)
Theorem C104_latex : forall uw1 uw2 f g d cfg, one_to_one (note_label d) f -> one_to_one (link_label d) g -> defined d ->
  option_map squash (render_latex uw1 (rename f g d) cfg) = option_map squash (render_latex uw2 d cfg).
Proof. exact latex_rename. Qed.
Print Assumptions C104_latex.

(** *** an example: "a" and "b" change places, the label of the link changes *)
Definition named (a b : string) (l : list inline) : document :=
  Document [BParagraph [IText (lit "x"); IFootnoteReference (lit a); IFootnoteReference (lit b); ILinkReference (LinkReference l [IText (lit "text")])];
            BFootnoteDefinition (FootnoteDefinition (lit a) [BParagraph [IText (lit "first")]]);
            BFootnoteDefinition (FootnoteDefinition (lit b) [BParagraph [IText (lit "second")]]);
            BBlockQuote [BDefinition (LinkDefinition l (lit "u") None)]].
Definition swap (s : str) : str := if str_eqb s (lit "a") then lit "b" else if str_eqb s (lit "b") then lit "a" else s.
Definition relabel (l : list inline) : list inline := match l with [IText t] => [IEmphasis [IText t]] | _ => l end.
Example C104_nonvacuous : let d := named "a" "b" [IText (lit "name")] in
  rename swap relabel d = named "b" "a" [IEmphasis [IText (lit "name")]] /\
  one_to_one (note_label d) swap /\ one_to_one (link_label d) relabel /\ keeps_notes swap relabel d /\ defined d /\
  (exists o, render_html (@List.length _) d (HtmlConfig 80 []) = Some o).
Proof.
  cbv zeta. assert (N : forall x, note_label (named "a" "b" [IText (lit "name")]) x -> x = lit "a" \/ x = lit "b").
  { intros x [I|(n & I & <-)]; vm_compute in I; repeat destruct I as [I|I]; try discriminate; try contradiction; injection I as <-; auto. }
  assert (L : forall x, link_label (named "a" "b" [IText (lit "name")]) x -> x = [IText (lit "name")]).
  { intros x [(r & I & <-)|(n & I & <-)]; vm_compute in I; repeat destruct I as [I|I]; try discriminate; try contradiction; injection I as <-; reflexivity. }
  split; [reflexivity|]. split; [|split; [|split; [|split; [split|]]]].
  - intros x y X Y. apply N in X, Y. destruct X as [-> | ->], Y as [-> | ->]; vm_compute; congruence.
  - intros x y X Y _. apply L in X, Y. congruence.
  - intros x I. vm_compute in I; repeat destruct I as [I|I]; try discriminate; try contradiction; injection I as <-; reflexivity.
  - intros x I. assert (X : note_label (named "a" "b" [IText (lit "name")]) x) by now left. apply N in X as [-> | ->].
    + exists (FootnoteDefinition (lit "a") [BParagraph [IText (lit "first")]]). split; [vm_compute; tauto|reflexivity].
    + exists (FootnoteDefinition (lit "b") [BParagraph [IText (lit "second")]]). split; [vm_compute; tauto|reflexivity].
  - intros r I. exists (LinkDefinition [IText (lit "name")] (lit "u") None). split; [vm_compute; tauto|]. symmetry. apply L. left. now exists r.
  - eexists. vm_compute. reflexivity.
Qed.
(** Different labels must stay different: else a footnote has two definitions
    and a later definition may be taken. *)
Theorem C104_merged_refuted : let d := named "a" "b" [IText (lit "name")] in
  render_html (@List.length _) (rename (fun _ => lit "n") (fun l => l) d) (HtmlConfig 80 []) <> render_html (@List.length _) d (HtmlConfig 80 []).
Proof. vm_compute. discriminate. Qed.
Print Assumptions C104_merged_refuted.
