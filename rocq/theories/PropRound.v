(** Properties C41 (round trip), C56 (fenced code) and C67 (line breaks in
    texts).  Specification: SpecRound.v.  [default_config entities punct upper]
    is the default parser configuration; the theorems hold for every entity
    table, punctuation table and upper-case table, every display width function
    [uwidth], digit table [udigit] and value [big] of [usize::MAX]. *)
From Coq Require Import String Lia List NArith.
From Verif Require Import Chars Ast SpecAst Nom ParserConfig ParserBlock SpecParser MdPrinter SpecMd PropMd PropRender
  ConformanceParser ConformanceMd SpecRound RoundUnwrap RoundMain RoundCheck.
Import ListNotations.
Open Scope list_scope.

(** ** C67: the Markdown printer does not tell line breaks in texts from spaces *)
Theorem C67_soft_breaks : forall uwidth upper udigit big config d,
  (forall l t, In (ILinkReference (LinkReference l t)) (doc_inlines d) -> l = t \/ unwrap_inlines l <> unwrap_inlines t) ->
  render_markdown uwidth upper udigit big (unwrap d) config = render_markdown uwidth upper udigit big d config.
Proof.
  intros uwidth upper udigit big config d H. apply unwrap_render. apply Forall_forall. intros i I. destruct i as [| | | | |[l t]| | | | | | |]; cbn; try exact Logic.I. exact (H l t I).
Qed.
Print Assumptions C67_soft_breaks.
(** the condition on references is needed: the two parts are compared *)
Theorem C67_references_refuted : let d := Document [BParagraph [ILinkReference (LinkReference [IText (lit "a b")] [IText (lit "a" ++ [c_nl] ++ lit "b")])]] in
  md_render md_default (unwrap d) <> md_render md_default d.
Proof. vm_compute. discriminate. Qed.
Print Assumptions C67_references_refuted.
Example C67_nonvacuous : md_render md_default (unwrap (Document [BParagraph [IText (lit "a" ++ [c_nl] ++ lit "b")]])) = Some (lit "a b").
Proof. vm_compute. reflexivity. Qed.

(** ** C41: the round trip *)
Theorem C41_round_trip : forall entities punct upper uwidth udigit big config d o,
  plain_document udigit config d -> upper_ok upper ->
  render_markdown uwidth upper udigit big d config = Some o ->
  exists d', parse_markdown (default_config entities punct upper) o = Ok [] d' /\ unwrap d' = unwrap d /\ plain_document udigit config d'.
Proof.
  intros entities punct upper uwidth udigit big config d o Hp Hu Ho. edestruct document_round as (d' & P & E & U); [exact Hu|exact Hp| |exists d'; exact (conj E (conj U P))].
  eapply PropMd.C66_output_is_view. exact Ho.
Qed.
Print Assumptions C41_round_trip.
(** documents of the fragment can be printed if the width leaves room for quotes *)
Lemma max_le : forall A (f : A -> nat) l x, In x l -> f x <= fold_right (fun b n => Nat.max (f b) n) 0 l.
Proof. intros A f l x I. induction l as [|y l IH]; [contradiction|]. cbn [fold_right]. destruct I as [->|I]; [lia|]. specialize (IH I). lia. Qed.
Lemma plain_no_panic : forall uwidth udigit config b p col ind, plain_block udigit config p b -> col + list_columns config b + 2 <= md_width config -> ind + list_columns config b + 2 <= md_width config ->
  ~ panics uwidth udigit config col ind b.
Proof.
  intros uwidth udigit config.
  assert (HB : forall bs p col ind m, Forall (fun b => forall p col ind, plain_block udigit config p b -> col + list_columns config b + 2 <= md_width config -> ind + list_columns config b + 2 <= md_width config ->
      ~ panics uwidth udigit config col ind b) bs -> Forall (plain_block udigit config p) bs -> Forall (fun b => list_columns config b <= m) bs -> col + m + 2 <= md_width config -> ind + m + 2 <= md_width config ->
      ~ panics_blocks uwidth udigit config col ind bs).
  { intros bs p col ind m IH Hp Hm H1 H2 P. rewrite Forall_forall in *. inversion P as [? ? b l Q|? ? b l c I Q]; subst.
    - assert (I : In b (b :: l)) by now left. specialize (Hm b I). eapply (IH b I p col ind (Hp b I)); [lia|lia|exact Q].
    - assert (J : In c (b :: l)) by now right. specialize (Hm c J). eapply (IH c J p ind ind (Hp c J)); [lia|lia|exact Q]. }
  induction b as [c|h| |bs IH|k items IH|c|s|d|t|l bs IH|t bs IH|] using block_ind'; intros p col ind Hp W1 W2 P; try (destruct Hp; fail); inversion P; subst.
  - lia.
  - apply plain_quote in Hp as (_ & _ & Hp). cbn [list_columns] in *. match goal with H : panics_blocks _ _ _ _ _ _ |- _ => revert H end. apply (HB bs Quote 0 0 (fold_right (fun b n => Nat.max (list_columns config b) n) 0 bs) IH Hp); [apply Forall_forall; intros b I; exact (max_le _ (list_columns config) bs b I)|lia|lia].
  - apply plain_list in Hp as (_ & _ & Hne & _ & Hf & _). match goal with H : number_overflow _ _ |- _ => unfold number_overflow in H; destruct k as [n|]; [|exact H]; cbn [numbers_fit] in Hf; destruct H as [H|H]; [lia|] end. destruct items; [congruence|]. cbn [List.length] in *. lia.
  - apply plain_list in Hp as (_ & _ & Hne & Hm & Hf & Hi). match goal with H : nth_error items _ = Some _ |- _ => rename H into E end. pose proof (nth_error_In _ _ E) as I.
    match goal with H : panics_blocks _ _ _ _ _ _ |- _ => revert H end. rewrite Forall_forall in IH, Hi. specialize (IH _ I). destruct (Hi _ I) as (_ & _ & Hb). cbn [li_blocks] in *. cbn [list_columns] in W1, W2.
    pose proof (max_le _ (fun it => fold_right (fun b n => Nat.max (list_columns config b) n) 0 (li_blocks it)) items _ I) as M. cbv beta in M. cbn [li_blocks] in M.
    assert (K : k0 < List.length items) by (apply nth_error_Some; congruence). specialize (Hm k0 K).
    eapply (HB bs _ _ _ (fold_right (fun b n => Nat.max (list_columns config b) n) 0 bs) IH Hb); [apply Forall_forall; intros b J; exact (max_le _ (list_columns config) bs b J)| |].
    + match goal with |- (if ?x then _ else _) + _ + _ + _ + task_width ?y + _ + _ <= _ => destruct x; destruct y end; cbn [task_width]; unfold content_indent in *; lia.
    + unfold content_indent in *. lia.
  - destruct Hp as (_ & _ & _ & R & _). eapply rect_overflow; eassumption.
  - apply plain_alert in Hp as (_ & _ & Hp). cbn [list_columns] in *. match goal with H : panics_blocks _ _ _ _ _ _ |- _ => revert H end.
    apply (HB bs Alert 0 0 (fold_right (fun b n => Nat.max (list_columns config b) n) 0 bs) IH); [eapply Forall_impl; [|exact Hp]; intros b []; assumption|apply Forall_forall; intros b I; exact (max_le _ (list_columns config) bs b I)|lia|lia].
Qed.
Theorem C41_prints : forall upper uwidth udigit big config d, plain_document udigit config d -> Forall (fun b => list_columns config b + 2 <= md_width config) (d_blocks d) ->
  exists o, render_markdown uwidth upper udigit big d config = Some o.
Proof.
  intros upper uwidth udigit big config [bs] [_ Hp] W. destruct (render_markdown _ _ _ _ _ _) as [o|] eqn:E; [eauto|]. exfalso.
  apply C37_panics_exactly in E. unfold document_panics in E. cbn [d_blocks] in *. rewrite Forall_forall in Hp, W.
  inversion E as [? ? b l P|? ? b l c I P]; subst; (eapply plain_no_panic; [apply Hp| | |exact P]; [|apply W|apply W]); cbn; auto.
Qed.
Print Assumptions C41_prints.
(** references of the fragment *)
Lemma rich_refs : forall l, rich l -> forall n c, In (ILinkReference (LinkReference n c)) (flat_map inline_preorder l) -> n = c \/ unwrap_inlines n <> unwrap_inlines c.
Proof.
  induction 1; intros m k I; try (destruct I; fail);
    cbn [flat_map] in I; apply in_app_or in I as [I|I]; auto; cbn [inline_preorder flat_map link_children lr_label lr_text] in I; rewrite ?app_nil_r in I;
    repeat (match type of I with In _ (_ :: _) => destruct I as [I|I]; [try discriminate I|]; auto | In _ [] => destruct I end).
  - injection I as <- <-. now left.
  - apply in_app_or in I as [I|I]; auto.
  - injection I as <- <-. now right.
  - apply in_app_or in I as [I|I]; auto.
Qed.
Lemma plain_refs : forall udigit config d, plain_document udigit config d -> forall n c, In (ILinkReference (LinkReference n c)) (doc_inlines d) -> n = c \/ unwrap_inlines n <> unwrap_inlines c.
Proof.
  intros udigit config [bs] [_ Hp] n c0 I. unfold doc_inlines, doc_blocks in *. cbn [d_blocks] in *.
  apply in_flat_map in I as (b & B & I). apply in_flat_map in B as (b0 & B0 & B). rewrite Forall_forall in Hp. specialize (Hp b0 B0). clear B0.
  revert Hp B. generalize Top. induction b0 as [c|h| |q IH|k items IH|c|s|d|t|l q IH|t q IH|] using block_ind'; intros p Hp B; try (destruct Hp; fail);
    cbn [block_preorder] in B; (destruct B as [<-|B]; [|]); try contradiction; cbn [block_inlines] in I; try (destruct I; fail).
  - eapply rich_refs; [|exact I]. apply Hp.
  - destruct h as [[] c]; cbn [plain_block] in Hp; (eapply rich_refs; [|exact I]); cbn [h_content]; apply Hp.
  - apply plain_quote in Hp as (_ & _ & Hp). apply in_flat_map in B as (b1 & B1 & B). rewrite Forall_forall in IH, Hp. exact (IH b1 B1 Quote (Hp b1 B1) B).
  - apply plain_list in Hp as (_ & _ & _ & _ & _ & Hp). cbn [l_items] in B. apply in_flat_map in B as (it & I1 & B). apply in_flat_map in B as (b1 & B1 & B). rewrite Forall_forall in IH, Hp.
    specialize (IH it I1). destruct (Hp it I1) as (_ & _ & Hb). rewrite Forall_forall in IH, Hb. exact (IH b1 B1 _ (Hb b1 B1) B).
  - destruct d as [l d t]. cbn [plain_block ld_label] in *. eapply rich_refs; [|exact I]. apply Hp.
  - destruct Hp as (_ & _ & _ & _ & _ & Hp). apply in_flat_map in I as (i & J & I). apply in_concat in J as (cell & C & J). apply in_concat in C as (row & R & C). rewrite Forall_forall in Hp. specialize (Hp row R). rewrite Forall_forall in Hp. specialize (Hp cell C). eapply rich_refs; [apply Hp|]. apply in_flat_map. now exists i.
  - apply plain_alert in Hp as (_ & _ & Hp). apply in_flat_map in B as (b1 & B1 & B). rewrite Forall_forall in IH, Hp. exact (IH b1 B1 Alert (proj2 (Hp b1 B1)) B).
Qed.
(** printing what was read back prints the same text *)
Theorem C41_idempotent : forall entities punct upper uwidth udigit big config d o,
  plain_document udigit config d -> upper_ok upper ->
  render_markdown uwidth upper udigit big d config = Some o ->
  exists d', parse_markdown (default_config entities punct upper) o = Ok [] d' /\
    render_markdown uwidth upper udigit big d' config = Some o.
Proof.
  intros entities punct upper uwidth udigit big config d o Hp Hu Ho.
  destruct (C41_round_trip entities punct upper uwidth udigit big config d o Hp Hu Ho) as (d' & E & U & P). exists d'. split; [exact E|].
  rewrite <- C67_soft_breaks by exact (plain_refs udigit config d' P). rewrite U, C67_soft_breaks by exact (plain_refs udigit config d Hp). exact Ho.
Qed.
Print Assumptions C41_idempotent.

(** Different documents are printed differently, whatever the options: documents
    with the same Markdown are the same up to line breaks in texts. *)
Theorem C41_injective : forall upper uwidth1 uwidth2 udigit big1 big2 config1 config2 d1 d2 o,
  plain_document udigit config1 d1 -> plain_document udigit config2 d2 -> upper_ok upper ->
  render_markdown uwidth1 upper udigit big1 d1 config1 = Some o ->
  render_markdown uwidth2 upper udigit big2 d2 config2 = Some o ->
  unwrap d1 = unwrap d2.
Proof.
  intros upper uwidth1 uwidth2 udigit big1 big2 config1 config2 d1 d2 o P1 P2 Hu R1 R2.
  destruct (C41_round_trip (fun _ => None) (fun _ => false) upper uwidth1 udigit big1 config1 d1 o P1 Hu R1) as (e1 & E1 & U1 & _).
  destruct (C41_round_trip (fun _ => None) (fun _ => false) upper uwidth2 udigit big2 config2 d2 o P2 Hu R2) as (e2 & E2 & U2 & _).
  rewrite E1 in E2. injection E2 as ->. congruence.
Qed.
Print Assumptions C41_injective.
(** ... and the width does not matter for what is read back *)
Theorem C41_any_width : forall entities punct upper uwidth udigit big config w w' d o o' d1 d2,
  plain_document udigit config d -> upper_ok upper ->
  render_markdown uwidth upper udigit big d (with_width config w) = Some o ->
  render_markdown uwidth upper udigit big d (with_width config w') = Some o' ->
  parse_markdown (default_config entities punct upper) o = Ok [] d1 ->
  parse_markdown (default_config entities punct upper) o' = Ok [] d2 -> unwrap d1 = unwrap d2.
Proof.
  intros entities punct upper uwidth udigit big config w w' d o o' d1 d2 Hp Hu H1 H2 P1 P2.
  eapply C41_round_trip in H1 as (x1 & E1 & U1 & _); [|exact Hp|exact Hu]. eapply C41_round_trip in H2 as (x2 & E2 & U2 & _); [|exact Hp|exact Hu].
  rewrite P1 in E1. rewrite P2 in E2. injection E1 as ->. injection E2 as ->. congruence.
Qed.
Print Assumptions C41_any_width.

(** The claim for all sources fails: texts are printed unescaped. *)
Theorem C41_round_trip_refuted : exists s d o d',
  parse_markdown test_config s = Ok [] d /\ md_render md_default d = Some o /\
  parse_markdown test_config o = Ok [] d' /\ unwrap d' <> unwrap d.
Proof.
  exists (lit "\# x"). eexists _, _, _. split; [vm_compute; reflexivity|]. split; [vm_compute; reflexivity|]. split; [vm_compute; reflexivity|].
  vm_compute. discriminate.
Qed.
Print Assumptions C41_round_trip_refuted.

(** *** the fragment is inhabited *)
Definition t_ (s : string) : inline := IText (lit s).
Definition round_sample : document :=
  Document [BHeading (Heading (Atx 2) [t_ "# title > "; IStrong [t_ "x"]]);
            BParagraph [t_ "some words, some (more) words - and # signs: 1. 2. three"];
            BParagraph [IEmphasis [t_ "stressed "; ICode (lit "a + b")]; t_ ", "; IStrong [t_ "strong "; IEmphasis [t_ "both"]; t_ " end"]; t_ " "; IStrong [IEmphasis [t_ "one"]]; t_ "."; ILineBreak;
                        IStrikethrough [t_ "gone "; ILink (Link (lit "http://x.y/z?a=b") (Some (lit "a title")) [t_ "the "; ICode (lit "link")])]; t_ " "; IImage (Image (lit "i.png") None (lit "alt *text*"));
                        t_ " "; IAutolink (lit "mailto:me"); t_ " and "; IAutolink (lit "a@b.c"); IFootnoteReference (lit "n1"); t_ "! ";
                        ILinkReference (LinkReference [t_ "short cut"] [t_ "short cut"]); t_ "; "; ILinkReference (LinkReference [t_ "name"] [IEmphasis [t_ "text"]])];
            BDefinition (LinkDefinition [t_ "short "; IEmphasis [t_ "cut"]] (lit "/url?x") (Some (lit "its (title)")));
            BBlockQuote [BDefinition (LinkDefinition [t_ "name"] (lit "b.html") None); BParagraph [t_ "quoted "; ICode (lit "x")]; BBlockQuote [BThematicBreak; BHeading (Heading (Setext Level2) [ILinkReference (LinkReference [t_ "inner"] [t_ "inner"])])];
                         BList (MkList (Ordered 8) [ListItem None [BParagraph [t_ "eighth"]]; ListItem None [BParagraph [t_ "ninth item"]; BParagraph [t_ "second block"]]]); BParagraph [t_ "behind the list"]];
            BList (MkList (Bullet Dash)
              [ListItem None [BParagraph [t_ "first item, with words that are wrapped"]; BParagraph [t_ "and a second paragraph"]; BBlockQuote [BParagraph [t_ "a quote"]]];
               ListItem (Some Complete) [BHeading (Heading (Atx 3) [t_ "a done task"])];
               ListItem None [BParagraph [t_ "nested:"]; BList (MkList (Ordered 10) [ListItem (Some Incomplete) [BParagraph [t_ "nested"]]; ListItem None []]); BParagraph [t_ "behind"]]]);
            BTable (Table [[[t_ "head "; IEmphasis [t_ "x"]]; []; [ICode (lit "c\d")]]; [[t_ "a cell"]; [t_ "1"]; [ILink (Link (lit "d") None [t_ "link"])]]] [ANone; ARight; ACenter]);
            BGitHubAlert (GitHubAlert Warning [BParagraph [t_ "careful with these words"]; BBlockQuote [BParagraph [t_ "said"]; BTable (Table [[[t_ "h"]]] [ACenter])]; BList (MkList (Bullet Star) [ListItem None [BParagraph [t_ "one"]]; ListItem None [BParagraph [t_ "two"]]])]);
            BList (MkList (Bullet Plus) [ListItem None [BParagraph [t_ "see"]; BGitHubAlert (GitHubAlert (Custom (lit "MY_ALERT2")) [])]]);
            BHtmlBlock (lit "<!-- a comment" ++ [c_nl; c_nl] ++ lit "  - of -- several <lines> -->");
            BBlockQuote [BHtmlBlock (lit "<?php f(); ?>"); BList (MkList (Bullet Dash) [ListItem None [BHtmlBlock (lit "<!-- short -->")]])];
            BHtmlBlock (lit "<Script type=js>" ++ [c_nl] ++ lit "if (a </ b) c;" ++ [c_nl; c_nl] ++ lit "</sCRIPT>");
            BHtmlBlock (lit "<!DOCTYPE html" ++ [c_nl] ++ lit ">");
            BHtmlBlock (lit "<details open>" ++ [c_nl] ++ lit "  <summary>*not stressed*</summary>" ++ [c_nl]);
            BHtmlBlock (lit "</details>" ++ [c_nl]);
            BHtmlBlock (lit "<HR/>" ++ [c_nl]);
            BHtmlBlock (lit "<my-tag>" ++ [c_nl] ++ lit "*not stressed*" ++ [c_nl] ++ lit "</my-tag>" ++ [c_nl; c_nl]);
            BBlockQuote [BHtmlBlock (lit "<pre>a  b</pre>")];
            BCodeBlock (CodeBlock (Fenced (Some (lit "rust"))) (lit "fn f() {" ++ [c_nl; c_nl] ++ lit "}"));
            BCodeBlock (CodeBlock Indented (lit "x" ++ [c_nl; c_nl] ++ lit " y"))].
Local Ltac not_in := let H := fresh in intro H; vm_compute in H; intuition discriminate.
Example C41_nonvacuous : plain_document (fun _ => false) md_default round_sample /\ upper_ok (fun c => [c]) /\
  Forall (fun b => list_columns md_default b + 2 <= 20) (d_blocks round_sample) /\
  (exists o, md_render (with_width md_default 20) round_sample = Some o) /\
  (exists o, md_render md_default round_sample = Some o /\ unwrap round_sample = unwrap match parse_markdown test_config o with Ok _ d => d | _ => Document [] end).
Proof.
  split; [|split; [|split; [|split]]].
  - split; [apply orderly_ok; vm_compute; reflexivity|]. unfold round_sample. cbn [d_blocks]. repeat apply Forall_cons; [..|apply Forall_nil]; apply plain_ok; vm_compute; reflexivity.
  - intros c Hc. exists c, []. split; [reflexivity|]. cbn. intros [<-|[<-|[]]]; discriminate.
  - unfold round_sample. cbn [d_blocks]. repeat constructor; apply Nat.leb_le; vm_compute; reflexivity.
  - eexists. vm_compute. reflexivity.
  - eexists. split; [vm_compute; reflexivity|]. vm_compute. reflexivity.
Qed.

(** Outside of the fragment: the blank line in front of "c" is indented further
    than the nested list, so "c" is read as part of that list ... *)
Theorem C41_nested_list_refuted : exists o d',
  let d := Document [BList (MkList (Ordered 10) [ListItem None
             [BParagraph [t_ "a"]; BList (MkList (Bullet Dash) [ListItem None [BParagraph [t_ "b"]]]); BParagraph [t_ "c"]]])] in
  md_render md_default d = Some o /\ parse_markdown test_config o = Ok [] d' /\ unwrap d' <> unwrap d.
Proof. eexists _, _. split; [vm_compute; reflexivity|]. split; [vm_compute; reflexivity|]. vm_compute. discriminate. Qed.
Print Assumptions C41_nested_list_refuted.
(** ... and fenced code inside of an item is not indented, so that an empty line
    in it ends the list. *)
Theorem C41_list_code_refuted : exists o d',
  let d := Document [BList (MkList (Bullet Dash) [ListItem None [BParagraph [t_ "a"]; BCodeBlock (CodeBlock (Fenced None) (lit "x" ++ [c_nl; c_nl] ++ lit "y"))]])] in
  md_render md_default d = Some o /\ parse_markdown test_config o = Ok [] d' /\ unwrap d' <> unwrap d.
Proof. eexists _, _. split; [vm_compute; reflexivity|]. split; [vm_compute; reflexivity|]. vm_compute. discriminate. Qed.
Print Assumptions C41_list_code_refuted.

(** A column aligned to the left is printed like one without alignment. *)
Theorem C41_left_alignment_refuted : exists d o d',
  parse_markdown test_config (lit "| a |" ++ [c_nl] ++ lit "|:--|") = Ok [] d /\ md_render md_default d = Some o /\
  parse_markdown test_config o = Ok [] d' /\ unwrap d' <> unwrap d.
Proof. eexists _, _, _. split; [vm_compute; reflexivity|]. split; [vm_compute; reflexivity|]. split; [vm_compute; reflexivity|]. vm_compute. discriminate. Qed.
Print Assumptions C41_left_alignment_refuted.

(** The label of a definition inside of a quote must not be wrapped: the space
    behind the quote's ">" becomes part of it. *)
Theorem C41_quoted_label_refuted : exists o d',
  let d := Document [BBlockQuote [BDefinition (LinkDefinition [t_ "long label"] (lit "/u") None)]] in
  md_render (with_width md_default 8) d = Some o /\ parse_markdown test_config o = Ok [] d' /\ unwrap d' <> unwrap d.
Proof. eexists _, _. split; [vm_compute; reflexivity|]. split; [vm_compute; reflexivity|]. vm_compute. discriminate. Qed.
Print Assumptions C41_quoted_label_refuted.

(** Footnote definitions are printed without the three spaces that continuation
    lines need, so that everything after their first line leaves the footnote. *)
Theorem C41_footnote_refuted : exists d o d',
  parse_markdown test_config (lit "[^a]: x" ++ [c_nl] ++ lit "   - b") = Ok [] d /\ md_render md_default d = Some o /\
  parse_markdown test_config o = Ok [] d' /\ unwrap d' <> unwrap d.
Proof. eexists _, _, _. split; [vm_compute; reflexivity|]. split; [vm_compute; reflexivity|]. split; [vm_compute; reflexivity|]. vm_compute. discriminate. Qed.
Print Assumptions C41_footnote_refuted.

(** ** C56: fenced code blocks.  The literal is the lines, without the
    indentation of the fence, joined by line breaks. *)
Theorem C56_fenced_block : forall entities punct upper k c n info ls a m,
  k <= 3 -> In c (lit "`~") -> 3 <= n -> one_liner info -> first_not c info ->
  Forall one_liner ls -> Forall (fun l => ~ closes_fence c n l) ls -> a <= 3 -> n <= m ->
  parse_markdown (default_config entities punct upper)
    (rep k c_sp ++ rep n c ++ info ++ [c_nl] ++ flat_map (fun l => rep k c_sp ++ l ++ [c_nl]) ls ++ rep a c_sp ++ rep m c)
  = Ok [] (Document [BCodeBlock (CodeBlock (Fenced (match info with [] => None | _ => Some info end)) (join [c_nl] ls))]).
Proof.
  intros entities punct upper k c n info ls a m Hk Hc Hn [Hi1 Hi2] Hf Hl Hx Ha Hm.
  assert (FC : fence_char c) by (cbn in Hc; unfold fence_char; intuition).
  assert (L : forall l, one_liner l -> Forall line_char l).
  { intros l [X Y]. apply Forall_forall. intros x I. split; intros ->; contradiction. }
  set (s := rep k c_sp ++ _).
  apply document_reads. split.
  - exists k. destruct n as [|n]; [lia|]. exists c. eexists. split; [reflexivity|]. now apply fence_inked.
  - intros r Hr. unfold s. rewrite <- !app_assoc. cbn [app]. apply alts_code. unfold p_code_block.
    unfold alt. rewrite or_e; [rewrite fence_reads; auto|].
    + split; [now apply L; split|]. destruct info as [|x info]; [exact I|]. cbn. intros ->. exact (Hf info eq_refl).
    + eapply Forall_impl; [|exact Hl]. exact L.
    + now apply blank_tail_stops.
    + destruct n as [|n]; [lia|]. apply code_indented_e; [exact Hk|now apply fence_inked].
Qed.
Print Assumptions C56_fenced_block.
(** printing a fenced or indented code block and parsing the result gives it back *)
Theorem C56_code_round_trip : forall entities punct upper uwidth udigit big config c,
  (match c with CodeBlock (Fenced info) s => fence_info info /\ fence_content s | CodeBlock Indented s => indented_content s end) ->
  upper_ok upper ->
  exists o, render_markdown uwidth upper udigit big (Document [BCodeBlock c]) config = Some o /\
    parse_markdown (default_config entities punct upper) o = Ok [] (Document [BCodeBlock c]).
Proof.
  intros entities punct upper uwidth udigit big config c H Hu. destruct (render_markdown _ _ _ _ _ _) as [o|] eqn:E.
  - exists o. split; [reflexivity|].
    destruct (C41_round_trip entities punct upper uwidth udigit big config (Document [BCodeBlock c]) o) as ([bs] & P & U & _); [|exact Hu|exact E|].
    + split; [intros [|x [|]] ? ? ? X; discriminate|]. constructor; [|constructor]. destruct c as [[|info] s]; [now split|split; [intros (n & X); discriminate|exact H]].
    + rewrite P. do 2 f_equal. unfold unwrap in U. cbn [d_blocks map unwrap_block] in U. injection U as U.
      destruct bs as [|b [|]]; try discriminate. cbn [map] in U. injection U as U. destruct b as [|[]| | |[]| | |[]|[]|[]|[]|]; try discriminate. cbn in U. now injection U as ->.
  - apply C37_panics_exactly in E. unfold document_panics in E. cbn [d_blocks] in E. inversion E as [? ? b l P|? ? b l x I P]; subst; [|contradiction]. inversion P.
Qed.
Print Assumptions C56_code_round_trip.
Example C56_fenced_nonvacuous : one_liner (lit "rust") /\ first_not (ch "~") (lit "rust") /\ Forall one_liner [lit "``` x"; []; lit "~~~"] /\
  Forall (fun l => ~ closes_fence (ch "~") 4 l) [lit "``` x"; []; lit "~~~"].
Proof.
  split; [split; not_in|]. split; [intros t; discriminate|]. split; [repeat constructor; not_in|].
  repeat constructor; intros (a & m & A1 & A2 & E); destruct a as [|a]; try discriminate; do 4 (destruct m as [|m]; [try lia; try discriminate|]); discriminate.
Qed.
(** a fence that is not closed is not a code block *)
Theorem C56_unclosed_refuted : exists l, parse_markdown test_config (lit "```" ++ [c_nl] ++ lit "x") = Ok [] (Document [BParagraph l]).
Proof. eexists. vm_compute. reflexivity. Qed.
Print Assumptions C56_unclosed_refuted.


(** ** HTML in quotes *)
(** A quoted comment of several lines becomes longer with every formatting: the
    parser keeps the blank behind ">" and the printer puts another one there.
    Printed and read again [n] times, its second line is indented by [n] more
    spaces; formatting never comes to an end. *)
Definition quoted_comment (n : nat) : document := Document [BBlockQuote [BHtmlBlock (lit "<!--" ++ c_nl :: rep n c_sp ++ lit "text -->")]].
Theorem C41_growing_refuted : forall entities punct upper uwidth udigit big config n, upper_ok upper -> 2 <= md_width config ->
  exists o, render_markdown uwidth upper udigit big (quoted_comment n) config = Some o /\
    parse_markdown (default_config entities punct upper) o = Ok [] (quoted_comment (S n)).
Proof.
  intros entities punct upper uwidth udigit big config n Hu Hw.
  set (h := fun n => lit "<!--" ++ c_nl :: rep n c_sp ++ lit "text -->").
  assert (Free : forall n, ~ In c_nl (rep n c_sp ++ lit "text -->") /\ ~ In c_cr (rep n c_sp ++ lit "text -->")).
  { intros m. split; intros I; apply in_app_or in I as [I|I]; try (apply repeat_spec in I; discriminate I); cbn in I; intuition discriminate. }
  assert (SL : split_lines (h n) = [lit "<!--"; rep n c_sp ++ lit "text -->"]).
  { unfold h. change (lit "<!--" ++ c_nl :: rep n c_sp ++ lit "text -->") with (join [c_nl] [lit "<!--"; rep n c_sp ++ lit "text -->"]). apply join_split; [discriminate|].
    repeat apply Forall_cons; [intro I; cbn in I; intuition discriminate|apply Free|apply Forall_nil]. }
  assert (So : solid (h n)).
  { split; [intro I; unfold h in I; apply in_app_or in I as [I|[I|I]]; [cbn in I; intuition discriminate|discriminate I|now apply Free in I]|].
    exists (lit "<!--" ++ c_nl :: rep n c_sp ++ lit "text --"), (ch ">"). split; [unfold h; rewrite <- !app_assoc; cbn [app]; rewrite <- !app_assoc; reflexivity|discriminate]. }
  assert (Cl : closed_html (h (S n))).
  { apply html_ok. unfold html_b. apply andb_true_intro. split; [apply Bool.negb_true_iff; unfold h; clear; induction n as [|n IH]; [reflexivity|exact IH]|].
    cbn [app existsb html_marks fst snd]. apply Bool.orb_true_iff. left. apply andb_true_intro. split; [reflexivity|]. unfold h. clear. cbn [skipn lit app List.length].
    change (ends_b (lit "-->") (c_nl :: rep (S n) c_sp ++ lit "text -->") = true). cbn [ends_b starts_with lit]. change (N.eqb 45 c_nl) with false. cbn [andb].
    generalize (S n) as m. intros m. induction m as [|m IH]; [reflexivity|]. cbn [rep repeat app ends_b starts_with]. change (N.eqb 45 c_sp) with false. exact IH. }
  exists (quoted (h n)). split.
  - unfold render_markdown, quoted_comment. unfold md_blocks. cbn [d_blocks map md_block]. fold (h n). unfold blocks_doc. cbn [blocks_go append].
    unfold render at 1. cbn [best]. unfold quote_at. replace (md_width config <? 0 + 2) with false by (symmetry; apply Nat.ltb_ge; lia).
    replace (render uwidth (md_width config - 0 - 2) (DText (h n))) with (Some (h n)) by (unfold render; cbn [best option_map fst]; reflexivity).
    cbv iota beta. pose proof (lines_split _ So) as LL. rewrite SL in LL. rewrite LL. cbn [map intersperse fold_left append best option_map fst Nat.add].
    unfold quoted. rewrite SL. cbn [map join rep repeat app]. reflexivity.
  - replace (quoted (h n)) with (pre 0 (quoted (join [c_nl; c_nl] [h n]))) by apply pre_0. unfold quoted_comment. apply document_reads.
    eapply (reads_quote entities punct upper 0 (fun _ => 0) 0); [lia|discriminate| |apply linked_one| |].
    + cbn [map]. apply Forall2_cons; [|apply Forall2_nil]. replace (pre 1 (h n)) with (rep 1 c_sp ++ h (S n)); [apply reads_html; [lia|now apply closed_here_html]|]. unfold pre. rewrite SL. reflexivity.
    + cbn [join]. rewrite SL. repeat apply Forall_cons; [split; discriminate..|apply Forall_nil| |apply Forall_nil].
      apply Forall_forall. intros c I. split; intros ->; now apply Free in I.
    + cbn [join]. rewrite SL. cbn [hd]. apply no_alert_head; [exact Hu|]. exists 0, (ch "<"), (lit "!--"). split; [reflexivity|]. split; [reflexivity|]. intros u E. discriminate E.
Qed.
Print Assumptions C41_growing_refuted.
