(** Property C105: a source is rendered to what it means.  Specification:
    SpecMeaning.v; [plain_document] is the fragment of C41 (SpecRound.v),
    [document_view] its Markdown text and [laid] a way of breaking its lines
    (SpecMd.v), [view] its HTML tree (SpecHtml.v), [tex_view] its LaTeX text with
    [layout] (SpecLatex.v), [prose] as in C96 (SpecWrap.v). *)
From Coq Require Import String Lia List NArith.
From Verif Require Import Chars Ast SpecAst Nom ParserConfig ParserBlock SpecParser PropParser MdPrinter SpecMd PropMd
  ConformanceParser ConformanceMd SpecRound RoundMain RoundCheck PropRound SpecWrap PropWrap HtmlFacts HtmlProps HtmlView LatexFacts SpecLatex FormatFacts SpecMeaning MeaningFacts Pretty HtmlPrinter LatexPrinter.
Import ListNotations.
Open Scope list_scope.

Local Lemma default_no_user : forall entities punct upper, no_user_code (default_config entities punct upper).
Proof. intros. unfold no_user_code. repeat apply conj; try reflexivity; repeat apply Forall_cons; try apply Forall_nil; cbn; exact I. Qed.

(** *** HTML *)
(** However the lines of a document of the fragment are broken, the source is
    parsed and rendered to its HTML tree: the tags, with their attributes, and
    the characters displayed are those of the tree (line breaks among the
    characters count as spaces). *)
Theorem C105_html_meaning : forall entities punct upper udigit config uw cfg d o,
  plain_document udigit config d -> firm d -> Forall raw_ok (raw_strings d) -> upper_ok upper ->
  laid None (document_view upper udigit config d) o ->
  exists d' out ts, parse_markdown (default_config entities punct upper) o = Ok [] d' /\
    render_html uw d' cfg = Some out /\ SpecHtml.tokens out = Some ts /\ balanced ts /\
    same_tokens ts (flatten_all (view escape (hc_anchor_prefix cfg) d)).
Proof.
  intros entities punct upper udigit config uw cfg d o Hp F R Hu L. destruct (C96_any_layout entities punct upper udigit config d o Hp Hu L) as (d' & E & U).
  assert (T : tables_ok d'). { intros t I. exact (proj1 (C46_tables_rectangular _ o [] d' (default_no_user entities punct upper) E t I)). }
  assert (R' : Forall raw_ok (raw_strings d')) by (rewrite <- raw_unwrap, U, raw_unwrap; exact R).
  destruct (render_html_view uw d' cfg R' T) as (out & E1 & E2 & B). exists d', out. eexists. split; [exact E|]. split; [exact E1|]. split; [exact E2|]. split; [exact B|].
  apply view_same; [exact U|]. exact (firm_same d d' (eq_sym U) F).
Qed.
Print Assumptions C105_html_meaning.

(** *** LaTeX *)
Theorem C105_latex_meaning : forall entities punct upper udigit config uw cfg d o,
  plain_document udigit config d -> firm d -> upper_ok upper ->
  laid None (document_view upper udigit config d) o ->
  exists d' out, parse_markdown (default_config entities punct upper) o = Ok [] d' /\
    render_latex uw d' cfg = Some out /\ layout (tex_view cfg d) out.
Proof.
  intros entities punct upper udigit config uw cfg d o Hp F Hu L. destruct (C96_any_layout entities punct upper udigit config d o Hp Hu L) as (d' & E & U).
  destruct (render_latex_view uw d' cfg) as (out & E1 & E2). exists d', out. split; [exact E|]. split; [exact E1|].
  rewrite <- (tex_unwrap cfg d F), <- U, (tex_unwrap cfg d' (firm_same d d' (eq_sym U) F)). exact E2.
Qed.
Print Assumptions C105_latex_meaning.

(** *** Prose *)
(** For paragraphs as authors write them there is no choice: the HTML tree is
    exactly that of the paragraphs, line breaks included. *)
Theorem C105_prose : forall entities punct upper uw cfg ls, Forall prose ls ->
  exists out, convert (default_config entities punct upper) (fun d => render_html uw d cfg) (join [c_nl; c_nl] (map source ls)) = Some out /\
    SpecHtml.tokens out = Some (flatten_all (view escape (hc_anchor_prefix cfg) (Document (map BParagraph ls)))).
Proof.
  intros entities punct upper uw cfg ls H. pose proof (C96_prose entities punct upper ls H) as E.
  assert (T : tables_ok (Document (map BParagraph ls))). { intros t I. exact (proj1 (C46_tables_rectangular _ _ [] _ (default_no_user entities punct upper) E t I)). }
  assert (R : Forall raw_ok (raw_strings (Document (map BParagraph ls)))).
  { apply Forall_forall. intros s I. unfold raw_strings in I. apply in_app_or in I as [I|I]; exfalso.
    - apply in_flat_map in I as (i & Ii & I). destruct i; cbn in I; try contradiction. destruct I as [->|[]]. exact (C62_no_inline_html _ _ [] _ (default_no_user entities punct upper) E s Ii).
    - apply in_flat_map in I as (b & Ib & I). unfold doc_blocks in Ib. cbn [d_blocks] in Ib. apply in_flat_map in Ib as (x & Ix & Ib). apply in_map_iff in Ix as (l & <- & _). destruct Ib as [<-|[]]. exact I. }
  destruct (render_html_view uw (Document (map BParagraph ls)) cfg R T) as (out & E1 & E2 & _). exists out. split; [|exact E2]. unfold convert. rewrite E. exact E1.
Qed.
Print Assumptions C105_prose.

(** Plain text comes out as the escaped text, each paragraph between <p> and </p>. *)
Theorem C105_plain_text : forall entities punct upper uw cfg ts, Forall (fun t => prose [IText t]) ts ->
  convert (default_config entities punct upper) (fun d => render_html uw d cfg) (join [c_nl; c_nl] ts) =
  Some (flat_map (fun t => lit "<p>" ++ escape t ++ lit "</p>") ts).
Proof.
  intros entities punct upper uw cfg ts H. assert (E : parse_markdown (default_config entities punct upper) (join [c_nl; c_nl] ts) = Ok [] (Document (map BParagraph (map (fun t => [IText t]) ts)))).
  { rewrite <- (C96_prose entities punct upper (map (fun t => [IText t]) ts)) by (apply Forall_map; exact H). do 2 f_equal. rewrite map_map. rewrite <- (map_id ts) at 1. apply map_ext. intros t. unfold source. cbn. now rewrite app_nil_r. }
  unfold convert. rewrite E. clear E H. rewrite render_html_dtext. cbn [d_blocks]. generalize (html_state_new cfg (Document (map BParagraph (map (fun t => [IText t]) ts)))). intros st.
  unfold blocks_to_doc. rewrite !map_map. cbn [block_to_doc]. unfold concat_docs. rewrite dtext_fold. change (dtext DNil) with (Some (@nil char)).
  assert (G : forall acc, fold_left (fun a x => oapp a (dtext x)) (map (fun x : str => tag (lit "p") [] (inlines_to_doc st [IText x])) ts) (Some acc) =
    Some (acc ++ flat_map (fun t => lit "<p>" ++ escape t ++ lit "</p>") ts)).
  { assert (P : forall t, dtext (tag (lit "p") [] (inlines_to_doc st [IText t])) = Some (lit "<p>" ++ escape t ++ lit "</p>")) by (intros t; now rewrite dtext_tag).
    induction ts as [|t ts IH]; intros acc; [cbn; now rewrite app_nil_r|]. cbn [map fold_left flat_map]. rewrite P. cbn [oapp]. rewrite IH. now rewrite <- !app_assoc. }
  exact (G []).
Qed.
Print Assumptions C105_plain_text.

(** *** the hypotheses are met *)
Definition meaning_sample : document :=
  Document [BParagraph [t_ "some words, "; ILinkReference (LinkReference [t_ "name"] [IEmphasis [t_ "a text"]]); t_ " behind"];
            BList (MkList (Bullet Dash) [ListItem (Some Complete) [BParagraph [t_ "an item"]]; ListItem None [BBlockQuote [BParagraph [t_ "a quote"]]]]);
            BHtmlBlock (lit "<hr></hr>" ++ [c_nl]); BDefinition (LinkDefinition [t_ "name"] (lit "b.html") None)].
Definition meaning_source : str := lit "some
words, [*a
text*][name] behind

 - [X] an item
 - > a
   > quote

<hr></hr>


[name]: b.html".
Local Ltac lay_out := repeat match goal with
  | |- laid ?a [] ?o => exact (laid_nil a)
  | |- laid ?a ((?i, Word ?w) :: ?ps) ?o => let o' := eval vm_compute in (skipn (List.length w) o) in apply (laid_word a i w ps o')
  | |- laid ?a ((?i, Soft) :: ?ps) (32%N :: ?o) => apply (laid_space a i ps o)
  | |- laid ?a ((?i, Soft) :: ?ps) ?o => let n := eval vm_compute in (List.length (break_to (next_indent a i ps))) in let o' := eval vm_compute in (skipn n o) in apply (laid_break a i ps o')
  | |- laid ?a ((?i, Newline) :: ?ps) ?o => let n := eval vm_compute in (List.length (break_to (next_indent a i ps))) in let o' := eval vm_compute in (skipn n o) in apply (laid_newline a i ps o')
  end.
Example C105_nonvacuous : plain_document (fun _ => false) md_default meaning_sample /\ firm meaning_sample /\ Forall raw_ok (raw_strings meaning_sample) /\
  laid None (document_view (fun c => [c]) (fun _ => false) md_default meaning_sample) meaning_source.
Proof.
  split; [|split; [|split]].
  - split; [apply orderly_ok; vm_compute; reflexivity|]. unfold meaning_sample. cbn [d_blocks]. repeat apply Forall_cons; [..|apply Forall_nil]; apply plain_ok; vm_compute; reflexivity.
  - split; intros r I; vm_compute in I; repeat destruct I as [I|I]; try discriminate; try contradiction; injection I as <-; intros t J; vm_compute in J; destruct J as [J|[]]; injection J as <-;
      split; intro K; vm_compute in K; intuition discriminate.
  - apply Forall_cons; [|apply Forall_nil]. eexists. split; [vm_compute; reflexivity|]. exact (bal_elem (lit "hr") [] [] [TChar c_nl] bal_nil (bal_char c_nl [] bal_nil)).
  - vm_compute. lay_out. match goal with |- laid _ ((?i, Quoted ?q) :: ?ps) ?o =>
      let n := eval vm_compute in (List.length (lit "> a" ++ [c_nl] ++ lit "   > quote")) in let o' := eval vm_compute in (skipn n o) in
      apply (laid_quoted None i q (lit "a" ++ [c_nl] ++ lit "quote") ps o') end; [vm_compute; lay_out|lay_out].
Qed.
Example C105_sample : exists d', parse_markdown test_config meaning_source = Ok [] d' /\ d' <> meaning_sample /\
  render_html (@List.length _) d' (HtmlConfig 80 []) = Some (lit "<p>some
words, <a href=""b.html""><em>a
text</em></a> behind</p><ul class=""markdown-list-kind-dash""><li><span class=""markdown-list-task-complete"">[X] </span><p>an item</p></li><li><blockquote><p>a
quote</p></blockquote></li></ul><hr></hr>
").
Proof. eexists. split; [vm_compute; reflexivity|]. split; [vm_compute; discriminate|vm_compute; reflexivity]. Qed.
Example C105_prose_nonvacuous : Forall (fun t => prose [IText t]) [lit "a line" ++ [c_nl] ++ lit "another's"; lit "the ""second"""].
Proof.
  repeat apply Forall_cons; [..|apply Forall_nil]; (split; [now apply (rich_ok 10)|]; split; [now apply para_ok|]; split; [now apply tight_ok|]);
    intros t I a b w x E W; vm_compute in I; repeat (destruct I as [I|I]; [try discriminate I; injection I as <-|]); try destruct I;
    vm_compute in E; repeat (destruct a as [|? a]; [try discriminate E; injection E as <-; vm_compute in W; injection W as <- <-; now apply opens_ok|injection E as <- E]);
    try (destruct a; discriminate E).
Qed.
