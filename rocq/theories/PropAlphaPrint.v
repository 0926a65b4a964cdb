(** Property C102: the printers treat texts in any alphabet alike.
    Specification: SpecAlphaPrint.v. *)
From Coq Require Import String List NArith Lia.
From Verif Require Import SpecParser ParserBlock ParserConfig ConformanceParser CharTree SpecAlpha PropAlpha AlphaPrint SpecAlphaPrint.
From Verif Require Import Pretty HtmlPrinter LatexPrinter MdPrinter.
Import ListNotations.
Open Scope list_scope.

(** Respelling the strings of a document respells its rendering, and does
    nothing else: the same tags, commands and markers, the same line breaks,
    the same padding of tables; a rendering panics if and only if the other
    one does. *)
Theorem C102_html : forall uwidth upper udigit f g d c, respelling uwidth upper udigit f g ->
  render_html uwidth (spell f d) (spell_prefix f c) = option_map (map f) (render_html uwidth d c).
Proof. intros uwidth upper udigit f g d c H. exact (html_alike uwidth upper udigit f g H d c). Qed.
Print Assumptions C102_html.
Theorem C102_latex : forall uwidth upper udigit f g d c, respelling uwidth upper udigit f g ->
  render_latex uwidth (spell f d) c = option_map (map f) (render_latex uwidth d c).
Proof. intros uwidth upper udigit f g d c H. exact (latex_alike uwidth upper udigit f g H d c). Qed.
Print Assumptions C102_latex.
Theorem C102_markdown : forall uwidth upper udigit big f g d c, respelling uwidth upper udigit f g ->
  render_markdown uwidth upper udigit big (spell f d) c = option_map (map f) (render_markdown uwidth upper udigit big d c).
Proof. intros uwidth upper udigit big f g d c H. exact (markdown_alike uwidth upper udigit f g H big d c). Qed.
Print Assumptions C102_markdown.

(** From source to output: respelling a source without "&" respells the HTML,
    the LaTeX and the Markdown made from it. *)
Theorem C102_source_to_output : forall cfg uwidth udigit big f g s,
  exchange cfg f g -> respelling uwidth (upper_table cfg) udigit f g ->
  no_user_code cfg -> i_text cfg <> Ignore -> b_paragraph cfg <> Ignore -> ~ In (ch "&") s ->
  exists d d', parse_markdown cfg s = Ok [] d /\ parse_markdown cfg (map f s) = Ok [] d' /\
    (forall c, render_html uwidth d' (spell_prefix f c) = option_map (map f) (render_html uwidth d c)) /\
    (forall c, render_latex uwidth d' c = option_map (map f) (render_latex uwidth d c)) /\
    (forall c, render_markdown uwidth (upper_table cfg) udigit big d' c = option_map (map f) (render_markdown uwidth (upper_table cfg) udigit big d c)).
Proof.
  intros cfg uwidth udigit big f g s X R Hu Ht Hp A. destruct (C101_any_alphabet cfg f g s X Hu Ht Hp A) as (d & E & E').
  exists d, (spell f d). repeat match goal with |- _ /\ _ => apply conj end; [exact E|exact E'| | |]; intros c.
  - exact (C102_html _ _ _ f g d c R).
  - exact (C102_latex _ _ _ f g d c R).
  - exact (C102_markdown _ _ _ big f g d c R).
Qed.
Print Assumptions C102_source_to_output.

(** ** The hypotheses are met: "é" and "ж" change places *)
Definition one_column (s : str) : nat := List.length s.
Example C102_respelling : respelling one_column (fun c => [c]) (fun _ => false) (swap 233%N 1078%N) (swap 233%N 1078%N).
Proof.
  constructor.
  - intro c. unfold swap. destruct (N.eqb_spec c 233) as [->|X]; [reflexivity|]. destruct (N.eqb_spec c 1078) as [->|Y]; [reflexivity|].
    apply N.eqb_neq in X as ->. apply N.eqb_neq in Y as ->. reflexivity.
  - intros c L. unfold swap. destruct (N.eqb_spec c 233) as [->|X]; [lia|]. destruct (N.eqb_spec c 1078) as [->|Y]; [lia|reflexivity].
  - intros c. unfold swap. destruct (N.eqb_spec c 233) as [->|X]; [reflexivity|]. destruct (N.eqb_spec c 1078) as [->|Y]; reflexivity.
  - intros s. apply map_length.
  - reflexivity.
  - reflexivity.
Qed.
Definition table_doc : document :=
  Document [BTable (Table [[[IText [233%N]]; [IText (lit "b")]]; [[IText (lit "cd e")]; [IStrong [IText [1078%N; 60%N]]]]] [ALeft; ARight]);
            BGitHubAlert (GitHubAlert (Custom [233%N]) [BParagraph [IText (lit "x " ++ [1078%N])]])].
Example C102_nonvacuous :
  render_html one_column table_doc (HtmlConfig 80 (lit "a")) <> None /\
  render_latex one_column table_doc (LatexConfig 80 Tabular Verbatim) <> None /\
  render_markdown one_column (fun c => [c]) (fun _ => false) 1000 table_doc md_default =
    Some (lit "| " ++ [233%N] ++ lit "    |      b |
| ---- | -----: |
| cd e | **" ++ [1078%N] ++ lit "<** |

> [!" ++ [233%N] ++ lit "]
> x " ++ [1078%N]).
Proof. split; [vm_compute; discriminate|]. split; [vm_compute; discriminate|]. vm_compute. reflexivity. Qed.
(** without equal display widths the statement fails: a wide character may
    need another line *)
Example C102_width_matters :
  let wide s := fold_right (fun c n => (if N.eqb c 1078 then 2 else 1) + n) 0 s in
  let d := Document [BParagraph [IText (lit "aaa " ++ [233%N; 233%N])]] in
  render_markdown wide (fun c => [c]) (fun _ => false) 1000 (spell (swap 233%N 1078%N) d) (MdConfig 6 1 true) <>
  option_map (map (swap 233%N 1078%N)) (render_markdown wide (fun c => [c]) (fun _ => false) 1000 d (MdConfig 6 1 true)).
Proof. vm_compute. discriminate. Qed.
