(** Property C103: formatting a document does not change what it is rendered
    to.  Specification: SpecFormat.v ([squash], [firm]); [unwrap] and
    [plain_document] are those of C41 (SpecRound.v). *)
From Coq Require Import String Lia List NArith.
From Verif Require Import Chars Ast SpecAst Nom ParserConfig ParserBlock SpecParser MdPrinter SpecMd PropMd
  ConformanceParser ConformanceMd SpecRound RoundCheck PropRound SpecFormat FormatFacts HtmlPrinter LatexPrinter.
Import ListNotations.
Open Scope list_scope.

(** Documents that differ in the wrapping of their texts are rendered to the
    same HTML and the same LaTeX, up to the choice between spaces and line
    breaks, or all fail to be rendered ... *)
Theorem C103_wrapping_html : forall uw d e cfg, unwrap d = unwrap e -> firm d ->
  option_map squash (render_html uw d cfg) = option_map squash (render_html uw e cfg).
Proof. exact html_same. Qed.
Print Assumptions C103_wrapping_html.
Theorem C103_wrapping_latex : forall uw1 uw2 d e cfg, unwrap d = unwrap e -> firm d ->
  option_map squash (render_latex uw1 d cfg) = option_map squash (render_latex uw2 e cfg).
Proof. exact latex_same. Qed.
Print Assumptions C103_wrapping_latex.

(** ... so that a document of the fragment of C41 can be formatted first. *)
Theorem C103_formatted_html : forall entities punct upper uwidth udigit big config uw cfg d o,
  plain_document udigit config d -> firm d -> upper_ok upper ->
  render_markdown uwidth upper udigit big d config = Some o ->
  exists d', parse_markdown (default_config entities punct upper) o = Ok [] d' /\
    option_map squash (render_html uw d' cfg) = option_map squash (render_html uw d cfg).
Proof.
  intros entities punct upper uwidth udigit big config uw cfg d o Hp F Hu Ho. destruct (C41_round_trip entities punct upper uwidth udigit big config d o Hp Hu Ho) as (d' & E & U & _).
  exists d'. split; [exact E|]. symmetry. now apply html_same.
Qed.
Print Assumptions C103_formatted_html.
Theorem C103_formatted_latex : forall entities punct upper uwidth udigit big config uw cfg d o,
  plain_document udigit config d -> firm d -> upper_ok upper ->
  render_markdown uwidth upper udigit big d config = Some o ->
  exists d', parse_markdown (default_config entities punct upper) o = Ok [] d' /\
    option_map squash (render_latex uw d' cfg) = option_map squash (render_latex uw d cfg).
Proof.
  intros entities punct upper uwidth udigit big config uw cfg d o Hp F Hu Ho. destruct (C41_round_trip entities punct upper uwidth udigit big config d o Hp Hu Ho) as (d' & E & U & _).
  exists d'. split; [exact E|]. symmetry. now apply latex_same.
Qed.
Print Assumptions C103_formatted_latex.

(** *** the hypotheses are met, and the documents do differ *)
Definition format_sample : document :=
  Document [BParagraph [t_ "some words that are wrapped, and "; ILinkReference (LinkReference [t_ "name"] [IEmphasis [t_ "a text"]]); t_ " behind"];
            BBlockQuote [BDefinition (LinkDefinition [t_ "name"] (lit "b.html") None)];
            BCodeBlock (CodeBlock (Fenced None) (lit "x" ++ [c_nl] ++ lit " y"))].
Example C103_nonvacuous : plain_document (fun _ => false) (with_width md_default 12) format_sample /\ firm format_sample /\ exists o d',
  md_render (with_width md_default 12) format_sample = Some o /\ parse_markdown test_config o = Ok [] d' /\ d' <> format_sample /\
  render_html (@List.length _) d' (HtmlConfig 80 []) <> render_html (@List.length _) format_sample (HtmlConfig 80 []) /\
  option_map squash (render_html (@List.length _) d' (HtmlConfig 80 [])) = Some
    (squash (lit "<p>some words that are wrapped, and <a href=""b.html""><em>a text</em></a> behind</p><blockquote></blockquote><pre><code>x
 y</code></pre>")).
Proof.
  split; [|split].
  - split; [apply orderly_ok; vm_compute; reflexivity|]. unfold format_sample. cbn [d_blocks]. repeat apply Forall_cons; [..|apply Forall_nil]; apply plain_ok; vm_compute; reflexivity.
  - split; intros r I; vm_compute in I; repeat destruct I as [I|I]; try discriminate; try contradiction; injection I as <-; intros t J; vm_compute in J; destruct J as [J|[]]; injection J as <-;
      split; intro K; vm_compute in K; intuition discriminate.
  - eexists _, _. split; [vm_compute; reflexivity|]. split; [vm_compute; reflexivity|]. split; [vm_compute; discriminate|]. split; [vm_compute; discriminate|]. vm_compute. reflexivity.
Qed.

(** The claim fails when labels are wrapped: a reference is matched with its
    definition by the equality of the parsed labels, in which a line break is
    not a space.  Formatting such a document loses the link and its text. *)
Theorem C103_wrapped_label_refuted : exists s d o d',
  parse_markdown test_config s = Ok [] d /\ plain_document (fun _ => false) (with_width md_default 18) d /\
  md_render (with_width md_default 18) d = Some o /\ parse_markdown test_config o = Ok [] d' /\ unwrap d' = unwrap d /\
  render_html (@List.length _) d (HtmlConfig 80 []) = Some (lit "<p>words and <a href=""u"">text</a></p>") /\
  render_html (@List.length _) d' (HtmlConfig 80 []) = Some (lit "<p>words and" ++ [c_nl] ++ lit "</p>").
Proof.
  exists (lit "words and [text][the long name]" ++ [c_nl; c_nl] ++ lit "[the long name]: u"). eexists _, _, _. split; [vm_compute; reflexivity|]. split; [|split; [vm_compute; reflexivity|]].
  - split; [apply orderly_ok; vm_compute; reflexivity|]. cbn [d_blocks]. repeat apply Forall_cons; [..|apply Forall_nil]; apply plain_ok; vm_compute; reflexivity.
  - split; [vm_compute; reflexivity|]. split; [vm_compute; reflexivity|]. split; vm_compute; reflexivity.
Qed.
Print Assumptions C103_wrapped_label_refuted.
