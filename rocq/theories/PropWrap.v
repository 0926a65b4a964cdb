(** Property C96: where lines are broken does not matter.  Specification:
    SpecWrap.v (and SpecRound.v: [plain_document], [unwrap]; SpecMd.v:
    [document_view], the text of a document with the places where a line may be
    broken, and [laid], a choice at each of these places). *)
From Coq Require Import String Lia List NArith.
From Verif Require Import Chars Ast SpecAst Nom ParserConfig ParserBlock SpecParser MdPrinter SpecMd PropMd PropRender
  ConformanceParser ConformanceMd RoundBlocks RoundRead RoundInline RoundUnwrap RoundMain RoundCheck PropRound RoundSettle SpecRound SpecWrap.
Import ListNotations.
Open Scope list_scope.

(** However the lines of a document of the fragment are broken (by hand or by a
    printer), the parser reads the document back, up to line breaks in texts. *)
Theorem C96_any_layout : forall entities punct upper udigit config d o,
  plain_document udigit config d -> upper_ok upper -> laid None (document_view upper udigit config d) o ->
  exists d', parse_markdown (default_config entities punct upper) o = Ok [] d' /\ unwrap d' = unwrap d.
Proof.
  intros entities punct upper udigit config d o Hp Hu L. edestruct document_round as (d' & P & E & U); [exact Hu|exact Hp|exact L|exists d'; exact (conj E U)].
Qed.
Print Assumptions C96_any_layout.

(** No source is a layout of two different documents, whatever the options under
    which these were laid out. *)
Theorem C96_unambiguous : forall upper udigit config1 config2 d1 d2 o, upper_ok upper ->
  plain_document udigit config1 d1 -> laid None (document_view upper udigit config1 d1) o ->
  plain_document udigit config2 d2 -> laid None (document_view upper udigit config2 d2) o -> unwrap d1 = unwrap d2.
Proof.
  intros upper udigit config1 config2 d1 d2 o Hu P1 L1 P2 L2.
  destruct (C96_any_layout (fun _ => None) (fun _ => false) upper udigit config1 d1 o P1 Hu L1) as (e1 & E1 & U1).
  destruct (C96_any_layout (fun _ => None) (fun _ => false) upper udigit config2 d2 o P2 Hu L2) as (e2 & E2 & U2).
  rewrite E1 in E2. injection E2 as ->. congruence.
Qed.
Print Assumptions C96_unambiguous.

(** Formatting: whatever the layout, parsing and printing with the same options
    gives the same text, namely that of the document itself. *)
Theorem C96_formatting : forall entities punct upper uwidth udigit big config d o d',
  plain_document udigit config d -> upper_ok upper -> laid None (document_view upper udigit config d) o ->
  parse_markdown (default_config entities punct upper) o = Ok [] d' ->
  render_markdown uwidth upper udigit big d' config = render_markdown uwidth upper udigit big d config.
Proof.
  intros entities punct upper uwidth udigit big config d o d' Hp Hu L E. edestruct document_round as (d2 & P & E2 & U); [exact Hu|exact Hp|exact L|]. rewrite E in E2. injection E2 as <-.
  rewrite <- C67_soft_breaks by exact (plain_refs udigit config d' P). rewrite U. apply C67_soft_breaks. exact (plain_refs udigit config d Hp).
Qed.
Print Assumptions C96_formatting.

(** ... and with other options too: formatting with [c1] and then with [c2] is
    formatting with [c2]. *)
Theorem C96_last_format_wins : forall entities punct upper uwidth udigit big c1 c2 d o d',
  plain_document udigit c1 d -> upper_ok upper ->
  render_markdown uwidth upper udigit big d c1 = Some o ->
  parse_markdown (default_config entities punct upper) o = Ok [] d' ->
  render_markdown uwidth upper udigit big d' c2 = render_markdown uwidth upper udigit big d c2.
Proof.
  intros entities punct upper uwidth udigit big c1 c2 d o d' Hp Hu Ho E. destruct (C41_round_trip entities punct upper uwidth udigit big c1 d o Hp Hu Ho) as (d2 & E2 & U & P). rewrite E in E2. injection E2 as <-.
  rewrite <- C67_soft_breaks by exact (plain_refs udigit c1 d' P). rewrite U. apply C67_soft_breaks. exact (plain_refs udigit c1 d Hp).
Qed.
Print Assumptions C96_last_format_wins.

(** Paragraphs of prose are read exactly as they are written, line breaks
    included. *)
Theorem C96_prose : forall entities punct upper ls, Forall prose ls ->
  parse_markdown (default_config entities punct upper) (join [c_nl; c_nl] (map source ls)) = Ok [] (Document (map BParagraph ls)).
Proof.
  intros entities punct upper ls H. apply (document_reads_at entities punct upper (fun _ => 0) 0).
  - induction H as [|l ls (R & O & T & B) _ IH]; [constructor|]. cbn [map]. constructor; [|exact IH]. apply reads_anywhere.
    replace (source l) with (pre 0 (source l)) by apply pre_0. apply reads_paragraph; [lia|apply rich_settled; auto; now apply tight_ends|].
    apply rich_parses; [exact R|]. now apply tight_ne.
  - clear H. induction ls as [|l [|l2 ls] IH]; [constructor|constructor|]. cbn [map] in *. constructor; [exact I|exact IH].
Qed.
Print Assumptions C96_prose.

(** *** concrete cases *)
Definition wrap_sample : document :=
  Document [BParagraph [t_ "some words, "; IEmphasis [t_ "some more"]; t_ " 1. and # the end"];
            BList (MkList (Bullet Dash) [ListItem None [BParagraph [t_ "an item"]]; ListItem None [BBlockQuote [BParagraph [t_ "a quote"]]]])].
Definition by_hand : str :=
  lit "some words," ++ [c_nl] ++ lit "*some" ++ [c_nl] ++ lit "more* 1. and # the" ++ [c_nl] ++ lit "end" ++ [c_nl; c_nl] ++
  lit " - an" ++ [c_nl] ++ lit "   item" ++ [c_nl] ++ lit " - > a" ++ [c_nl] ++ lit "   > quote".
Local Ltac lay_out := repeat match goal with
  | |- laid ?a [] ?o => exact (laid_nil a)
  | |- laid ?a ((?i, Word ?w) :: ?ps) ?o => let o' := eval vm_compute in (skipn (List.length w) o) in apply (laid_word a i w ps o')
  | |- laid ?a ((?i, Soft) :: ?ps) (32%N :: ?o) => apply (laid_space a i ps o)
  | |- laid ?a ((?i, Soft) :: ?ps) ?o => let n := eval vm_compute in (List.length (break_to (next_indent a i ps))) in let o' := eval vm_compute in (skipn n o) in apply (laid_break a i ps o')
  | |- laid ?a ((?i, Newline) :: ?ps) ?o => let n := eval vm_compute in (List.length (break_to (next_indent a i ps))) in let o' := eval vm_compute in (skipn n o) in apply (laid_newline a i ps o')
  end.
Example C96_nonvacuous : plain_document (fun _ => false) md_default wrap_sample /\
  laid None (document_view (fun c => [c]) (fun _ => false) md_default wrap_sample) by_hand /\
  parse_markdown test_config by_hand <> Ok [] wrap_sample.
Proof.
  split; [|split].
  - split; [apply orderly_ok; vm_compute; reflexivity|]. unfold wrap_sample. cbn [d_blocks]. repeat apply Forall_cons; [..|apply Forall_nil]; apply plain_ok; vm_compute; reflexivity.
  - vm_compute. lay_out. match goal with |- laid _ [(?i, Quoted ?q)] _ => apply (laid_quoted None i q (lit "a" ++ [c_nl] ++ lit "quote") [] []) end; [vm_compute; lay_out|apply laid_nil].
  - vm_compute. discriminate.
Qed.
Example C96_prose_nonvacuous : Forall prose [[IText (lit "a line" ++ [c_nl] ++ lit "another, "); IStrong [IText (lit "b" ++ [c_nl] ++ lit "c")]]; [ICode (lit "x"); t_ " second"]].
Proof.
  repeat apply Forall_cons; [..|apply Forall_nil]; (split; [now apply (rich_ok 10)|]; split; [now apply para_ok|]; split; [now apply tight_ok|]);
    intros t I a b w x E W; vm_compute in I; repeat (destruct I as [I|I]; [try discriminate I; injection I as <-|]); try destruct I;
    vm_compute in E; repeat (destruct a as [|? a]; [try discriminate E; injection E as <-; vm_compute in W; injection W as <- <-; now apply opens_ok|injection E as <- E]);
    try (destruct a; discriminate E).
Qed.
