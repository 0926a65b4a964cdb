(** Properties C22-C31 and C59: HTML rendering.  Specifications: SpecHtml.v
    (strict lexer [tokens], [balanced], [view], [footnote_number], [resolve],
    [blank], [shown]).  [uw] is the display width function of the
    [unicode-width] crate: every theorem holds for any. *)
From Coq Require Import String List.
From Verif Require Import HtmlProps Sample.
Import ListNotations.
Open Scope list_scope.

(** C22 *)
Theorem C22_escape_lexes_as_text : forall s, tokens (escape s) = Some (map TChar s).
Proof. exact tokens_escape. Qed.
Print Assumptions C22_escape_lexes_as_text.
Theorem C22_escape_no_markup_char : forall s c, In c (escape s) -> c <> 60%N /\ c <> 62%N /\ c <> 34%N /\ c <> 39%N.
Proof. exact escape_no_markup. Qed.
Print Assumptions C22_escape_no_markup_char.
Theorem C22_escape_injective : forall a b, escape a = escape b -> a = b.
Proof. exact escape_inj. Qed.
Print Assumptions C22_escape_injective.
Example C22_example : tokens (escape (lit "<a & 'b'>")) = Some (map TChar (lit "<a & 'b'>")).
Proof. vm_compute. reflexivity. Qed.

(** C59: the output, lexed, is the HTML view of the document.  (User strings
    in attributes come out as [escape s], see C25.) *)
Theorem C59_html_view : forall uw d cfg, Forall raw_ok (raw_strings d) -> tables_ok d ->
  exists out, render_html uw d cfg = Some out /\
    tokens out = Some (flatten_all (view escape (hc_anchor_prefix cfg) d)) /\
    balanced (flatten_all (view escape (hc_anchor_prefix cfg) d)).
Proof. exact render_html_view. Qed.
Print Assumptions C59_html_view.

(** C23 *)
Theorem C23_well_formed : forall uw d cfg, no_raw_html d -> tables_ok d ->
  exists out ts, render_html uw d cfg = Some out /\ tokens out = Some ts /\ balanced ts.
Proof.
  intros uw d cfg H T. destruct (render_html_view uw d cfg (no_raw_html_ok d H) T) as (out & A & B & C). eauto.
Qed.
Print Assumptions C23_well_formed.
Theorem C23_well_formed_raw : forall uw d cfg, Forall raw_ok (raw_strings d) -> tables_ok d ->
  exists out ts, render_html uw d cfg = Some out /\ tokens out = Some ts /\ balanced ts.
Proof. intros uw d cfg H T. destruct (render_html_view uw d cfg H T) as (out & A & B & C). eauto. Qed.
Print Assumptions C23_well_formed_raw.
(** a document with everything but raw HTML meets the hypotheses *)
Definition rich : document := Document [
  BHeading (Heading (Atx 2) [IText (lit "T & <t>"); IStrong [IText (lit "bold"); IFootnoteReference (lit "g")]]);
  BParagraph [ILink (Link (lit "u?a=1&b=2") (Some (lit "t")) [IText (lit "link"); IImage (Image (lit "i.png") None (lit "alt"))]);
              ILineBreak; ICode (lit "x<y"); IAutolink (lit "http://a"); IFootnoteReference (lit "f")];
  BBlockQuote [BParagraph [IEmphasis [IText (lit "q"); IText (lit " ")]];
               BList (MkList (Ordered 3) [ListItem None [BParagraph [IText (lit "one")]; BThematicBreak];
                                          ListItem (Some Complete) [BParagraph [IText (lit "two")]]])];
  BTable (Table [[[IText (lit "a")]; [IText (lit "b")]]; [[IText (lit "c")]; []]] [ALeft; ARight]);
  BCodeBlock (CodeBlock (Fenced (Some (lit "rust"))) (lit "fn<T>"));
  BDefinition (LinkDefinition [IText (lit "l")] (lit "d") None);
  BFootnoteDefinition (FootnoteDefinition (lit "f") [BParagraph [ILinkReference (LinkReference [IText (lit "l")] [IText (lit "txt")])]]);
  BGitHubAlert (GitHubAlert (Custom (lit "Hint")) [BParagraph [IStrikethrough [IText (lit "w")]]]);
  BParagraph []; BEmpty].
Example C23_example : no_raw_html rich /\ tables_ok rich.
Proof.
  split; [split; [|split]|].
  - intros s H. vm_compute in H. repeat (destruct H as [H|H]; [discriminate|]). exact H.
  - intros s H. vm_compute in H. repeat (destruct H as [H|H]; [discriminate|]). exact H.
  - intros s bs H. unfold doc_blocks, rich in H. cbn in H.
    repeat (destruct H as [H|H]; [try discriminate; inversion H; subst; reflexivity|]). contradiction.
  - intros t H. unfold doc_blocks, rich in H. cbn in H.
    repeat (destruct H as [H|H]; [try discriminate; inversion H; subst; discriminate|]). contradiction.
Qed.

(** C24 *)
Theorem C24_tags_from_structure : forall uw cfg d1 d2, blank d1 = blank d2 ->
  Forall raw_ok (raw_strings d1) -> tables_ok d1 ->
  exists out1 out2 ts1 ts2,
    render_html uw d1 cfg = Some out1 /\ render_html uw d2 cfg = Some out2 /\
    tokens out1 = Some ts1 /\ tokens out2 = Some ts2 /\ tags_of ts1 = tags_of ts2.
Proof. exact tags_determined. Qed.
Print Assumptions C24_tags_from_structure.
Example C24_example : let doc s := Document [BParagraph [IText s; ILink (Link s (Some s) [ICode s])]] in
  blank (doc (lit "<script>")) = blank (doc (lit "a ""b"" & c")) /\ doc (lit "<script>") <> doc (lit "a ""b"" & c").
Proof. split; [reflexivity|discriminate]. Qed.
(** The label of a custom alert, a user string, does change the tags. *)
Theorem C24_custom_label_refuted : exists s1 s2 out1 out2 ts1 ts2,
  let doc s := Document [BGitHubAlert (GitHubAlert (Custom s) [])] in
  render_html (@List.length _) (doc s1) (HtmlConfig 80 []) = Some out1 /\ tokens out1 = Some ts1 /\
  render_html (@List.length _) (doc s2) (HtmlConfig 80 []) = Some out2 /\ tokens out2 = Some ts2 /\
  tags_of ts1 <> tags_of ts2.
Proof.
  exists (lit "A"), (lit "<script>a</script>"). do 4 eexists.
  split; [vm_compute; reflexivity|]. split; [vm_compute; reflexivity|].
  split; [vm_compute; reflexivity|]. split; [vm_compute; reflexivity|]. vm_compute. discriminate.
Qed.
Print Assumptions C24_custom_label_refuted.

(** C25 *)
(** What an HTML reader sees in the attributes is a text [enc v] that, decoded
    once more, is the AST value [v]; it is [v] itself if [v] has none of the
    five special characters. *)
Theorem C25_attributes : exists enc, (forall v, tokens (enc v) = Some (map TChar v)) /\
  (forall v, plain v -> enc v = v) /\
  forall uw d cfg, Forall raw_ok (raw_strings d) -> tables_ok d ->
  exists out, render_html uw d cfg = Some out /\
    tokens out = Some (flatten_all (view enc (hc_anchor_prefix cfg) d)).
Proof.
  exists escape. split; [exact tokens_escape|]. split; [exact escape_plain|].
  intros uw d cfg H T. destruct (render_html_view uw d cfg H T) as (out & E & B & _). eauto.
Qed.
Print Assumptions C25_attributes.
(** So without special characters in destinations, titles, alternative texts
    and the anchor prefix, attributes carry exactly the AST values. *)
Theorem C25_plain_attributes : forall uw d cfg, Forall raw_ok (raw_strings d) -> tables_ok d ->
  plain (hc_anchor_prefix cfg) -> Forall plain (attr_strings d) ->
  exists out, render_html uw d cfg = Some out /\
    tokens out = Some (flatten_all (view (fun s => s) (hc_anchor_prefix cfg) d)).
Proof.
  intros uw d cfg H T P A. destruct (render_html_view uw d cfg H T) as (out & E & B & _).
  rewrite (view_plain _ d P A) in B. eauto.
Qed.
Print Assumptions C25_plain_attributes.
Example C25_example : Forall plain (attr_strings sample) /\ attr_strings sample <> [].
Proof. split; [|discriminate]. vm_compute. repeat constructor. Qed.
(** In general the value is escaped twice: a destination "a&b" is seen by an
    HTML reader as "a&amp;b". *)
Theorem C25_double_escape_refuted : exists u out,
  render_html (@List.length _) (Document [BParagraph [IAutolink u]]) (HtmlConfig 80 []) = Some out /\
  tokens out = Some ([TOpen (lit "p") []; TOpen (lit "a") [(lit "href", lit "a&amp;b")]]
                     ++ map TChar u ++ [TClose (lit "a"); TClose (lit "p")]) /\
  u <> lit "a&amp;b".
Proof.
  exists (lit "a&b"). eexists. split; [vm_compute; reflexivity|]. split; [vm_compute; reflexivity|discriminate].
Qed.
Print Assumptions C25_double_escape_refuted.

(** C26 *)
Theorem C26_width_independent : forall uw1 uw2 d c1 c2, hc_anchor_prefix c1 = hc_anchor_prefix c2 ->
  render_html uw1 d c1 = render_html uw2 d c2.
Proof. exact render_html_width. Qed.
Print Assumptions C26_width_independent.
Example C26_example : exists out, render_html (@List.length _) sample (HtmlConfig 1 (lit "p")) = Some out /\ render_html (fun _ => 0) sample (HtmlConfig 1000 (lit "p")) = Some out /\ List.length out = 1410.
Proof. eexists. split; [vm_compute; reflexivity|]. split; vm_compute; reflexivity. Qed.

(** C27 *)
Theorem C27_index_is_first_reference_order : forall cfg d x,
  get_footnote_index (html_state_new cfg d) x = footnote_number d x.
Proof. exact get_footnote_index_eq. Qed.
Print Assumptions C27_index_is_first_reference_order.
Theorem C27_numbers : forall d x n, footnote_number d x = Some n <->
  (1 <= n)%N /\ nth_error (first_occurrences (direct_refs d)) (N.to_nat (n - 1)) = Some x.
Proof. exact footnote_number_spec. Qed.
Print Assumptions C27_numbers.
Theorem C27_no_duplicates : forall d, NoDup (first_occurrences (direct_refs d)) /\
  forall x, In x (first_occurrences (direct_refs d)) <-> In x (direct_refs d).
Proof. intro d. split; [apply first_occurrences_NoDup|intro; apply first_occurrences_In]. Qed.
Print Assumptions C27_no_duplicates.
Example C27_example : let d := Document [BParagraph [IFootnoteReference (lit "b"); IFootnoteReference (lit "a"); IFootnoteReference (lit "b")]] in
  footnote_number d (lit "b") = Some 1%N /\ footnote_number d (lit "a") = Some 2%N /\ footnote_number d (lit "c") = None.
Proof. vm_compute. auto. Qed.

(** C28 *)
(** Exactly the labels referenced directly in a block are numbered ... *)
Theorem C28_direct_references : forall d x, footnote_number d x <> None <-> In x (direct_refs d).
Proof. exact footnote_number_direct. Qed.
Print Assumptions C28_direct_references.
Example C28_example : footnote_number sample (lit "f") = Some 1%N /\ direct_refs sample = [lit "f"].
Proof. vm_compute. auto. Qed.
(** ... so a reference inside emphasis is not: nothing is printed for it. *)
Theorem C28_every_reference_refuted : exists d x, In x (all_refs d) /\ footnote_number d x = None /\
  render_html (@List.length _) d (HtmlConfig 80 []) = Some (lit "<p><em></em></p>").
Proof.
  exists (Document [BParagraph [IEmphasis [IFootnoteReference (lit "a")]]]), (lit "a").
  split; [vm_compute; auto|]. split; vm_compute; reflexivity.
Qed.
Print Assumptions C28_every_reference_refuted.

(** C29 *)
Theorem C29_lookup : forall cfg d l, get_link_definition (html_state_new cfg d) l = resolve d l.
Proof. exact get_link_definition_eq. Qed.
Print Assumptions C29_lookup.
Theorem C29_last_definition_wins : forall d l x, resolve d l = Some x <->
  exists pre post, definitions d = pre ++ x :: post /\ ld_label x = l /\ Forall (fun y => ld_label y <> l) post.
Proof. exact resolve_some. Qed.
Print Assumptions C29_last_definition_wins.
Theorem C29_unresolved : forall d l, resolve d l = None <-> Forall (fun y => ld_label y <> l) (definitions d).
Proof. exact resolve_none. Qed.
Print Assumptions C29_unresolved.
(** The rendered reference, at any place of any paragraph of the document. *)
Lemma oapp_some a b s : oapp a b = Some s -> exists x y, a = Some x /\ b = Some y /\ s = x ++ y.
Proof. destruct a as [x|], b as [y|]; cbn [oapp]; try discriminate. intros [= <-]. eauto. Qed.
Lemma dtext_concat_split l d l' s : dtext (concat_docs (l ++ d :: l')) = Some s ->
  exists a x b, dtext d = Some x /\ s = a ++ x ++ b.
Proof.
  unfold concat_docs. rewrite fold_left_app. cbn [fold_left]. rewrite dtext_fold, dtext_append.
  generalize (dtext (fold_left append l DNil)). intros o E.
  assert (G : forall l' o s, fold_left (fun a x => oapp a (dtext x)) l' o = Some s -> exists x b, o = Some x /\ s = x ++ b).
  { clear. induction l' as [|y l' IH]; cbn [fold_left]; intros o s E; [exists s, []; now rewrite app_nil_r|]. apply IH in E as (x & b & E & ->).
    apply oapp_some in E as (x1 & x2 & -> & _ & ->). exists x1, (x2 ++ b). now rewrite app_assoc. }
  apply G in E as (x & b & E & ->). apply oapp_some in E as (a & y & _ & Ed & ->). exists a, y, b. split; [exact Ed|]. now rewrite <- app_assoc.
Qed.
Lemma rendered_inline uw cfg before xs i ys after out :
  let d := Document (before ++ BParagraph (xs ++ i :: ys) :: after) in
  render_html uw d cfg = Some out -> exists a x b, dtext (inline_to_doc (html_state_new cfg d) i) = Some x /\ out = a ++ x ++ b.
Proof.
  intros d E. rewrite render_html_dtext in E. set (st := html_state_new cfg d) in *. unfold d, blocks_to_doc in E. cbn [d_blocks] in E. rewrite map_app in E. cbn [map] in E.
  apply dtext_concat_split in E as (a & x & b & E & ->). cbn [block_to_doc] in E. rewrite dtext_tag in E. apply oapp_some in E as (o & y & _ & E & ->). apply oapp_some in E as (c & e & E & _ & ->).
  unfold inlines_to_doc in E. rewrite map_app in E. cbn [map] in E. apply dtext_concat_split in E as (a' & x & b' & E & ->).
  exists (a ++ o ++ a'), x, (b' ++ e ++ b). split; [exact E|]. rewrite <- !app_assoc. reflexivity.
Qed.
Theorem C29_rendered : forall uw cfg before xs label s ys after out,
  let d := Document (before ++ BParagraph (xs ++ ILinkReference (LinkReference label [IText s]) :: ys) :: after) in
  render_html uw d cfg = Some out ->
  exists a b, out = a ++
    match resolve d label with
    | Some x => lit "<a href=""" ++ escape (escape (ld_destination x)) ++ lit """" ++
                match ld_title x with Some t => lit " title=""" ++ escape (escape t) ++ lit """" | None => [] end ++
                lit ">" ++ escape s ++ lit "</a>"
    | None => []
    end ++ b.
Proof.
  intros uw cfg before xs label s ys after out d E. apply rendered_inline in E as (a & x & b & E & ->). fold d in E. exists a, b. f_equal. f_equal.
  cbn [inline_to_doc lr_label lr_text] in E. rewrite C29_lookup in E. destruct (resolve d label) as [[l u t]|]; [|now injection E as <-].
  rewrite dtext_tag in E. change (dtext (concat_docs (map (inline_to_doc (html_state_new cfg d)) [IText s]))) with (Some (escape s)) in E. cbn [oapp] in E. injection E as <-.
  destruct t as [t|]; cbn [ld_title ld_destination title_attr flat_map]; unfold attr_str; cbn [fst snd lit list_ascii_of_string map app];
    repeat (rewrite <- app_assoc; cbn [app]); reflexivity.
Qed.
Print Assumptions C29_rendered.
Theorem C27_rendered : forall uw cfg before xs label ys after out,
  let d := Document (before ++ BParagraph (xs ++ IFootnoteReference label :: ys) :: after) in
  render_html uw d cfg = Some out ->
  exists a b n, footnote_number d label = Some n /\
    out = a ++ lit "<a class=""markdown-footnote-reference"" href=""" ++ escape (escape (lit "#" ++ hc_anchor_prefix cfg ++ dec n)) ++ lit """>[" ++ dec n ++ lit "]</a>" ++ b.
Proof.
  intros uw cfg before xs label ys after out d E. apply rendered_inline in E as (a & x & b & E & ->). fold d in E.
  assert (N : footnote_number d label <> None).
  { apply C28_direct_references. unfold direct_refs, doc_blocks, d. cbn [d_blocks]. rewrite !flat_map_app. cbn [flat_map block_preorder app block_inlines]. apply in_or_app. right. apply in_or_app. left.
    unfold inline_refs. rewrite flat_map_app. apply in_or_app. right. now left. }
  cbn [inline_to_doc] in E. rewrite C27_index_is_first_reference_order in E. destruct (footnote_number d label) as [n|]; [|contradiction]. exists a, b, n. split; [reflexivity|]. f_equal.
  rewrite dtext_tag in E. cbn [dtext oapp] in E. injection E as <-. cbn [hs_config html_state_new flat_map]. unfold attr_str. cbn [fst snd].
  change (escape (lit "markdown-footnote-reference")) with (lit "markdown-footnote-reference").
  cbn [lit list_ascii_of_string map app]. repeat (rewrite <- app_assoc; cbn [app]). reflexivity.
Qed.
Print Assumptions C27_rendered.
Example C29_rendered_example :
  let d := Document [BParagraph [ILinkReference (LinkReference [IText (lit "l")] [IText (lit "a&b")]); IFootnoteReference (lit "n")];
                     BDefinition (LinkDefinition [IText (lit "l")] (lit "u") (Some (lit "t")))] in
  render_html (@List.length _) d (HtmlConfig 80 (lit "p-")) =
    Some (lit "<p><a href=""u"" title=""t"">a&amp;b</a><a class=""markdown-footnote-reference"" href=""#p-1"">[1]</a></p>").
Proof. vm_compute. reflexivity. Qed.
(** The text of an unresolved reference is lost. *)
Theorem C29_unresolved_text_refuted : exists l t,
  t <> [] /\
  render_html (@List.length _) (Document [BParagraph [ILinkReference (LinkReference l t)]]) (HtmlConfig 80 []) = Some (lit "<p></p>").
Proof. exists [IText (lit "x")], [IText (lit "see here")]. split; [discriminate|vm_compute; reflexivity]. Qed.
Print Assumptions C29_unresolved_text_refuted.
Example C29_example :
  let a := LinkDefinition [IText (lit "l")] (lit "first") None in
  let b := LinkDefinition [IText (lit "l")] (lit "second") None in
  resolve (Document [BDefinition a; BBlockQuote [BDefinition b]]) [IText (lit "l")] = Some b.
Proof. vm_compute. reflexivity. Qed.

(** C30: rendering fails exactly when a displayed table has no rows. *)
Theorem C30_panics_iff : forall uw d cfg, render_html uw d cfg = None <->
  exists t, In (BTable t) (displayed_blocks d) /\ t_rows t = [].
Proof. exact render_html_none. Qed.
Print Assumptions C30_panics_iff.
Example C30_example : render_html (@List.length _) (Document [BBlockQuote [BTable (Table [] [])]]) (HtmlConfig 80 []) = None /\
  render_html (@List.length _) (Document [BFootnoteDefinition (FootnoteDefinition (lit "unused") [BTable (Table [] [])])]) (HtmlConfig 80 []) = Some [].
Proof. vm_compute. auto. Qed.
Theorem C30_never_panics_refuted : exists d, render_html (@List.length _) d (HtmlConfig 80 []) = None.
Proof. exists (Document [BTable (Table [] [])]). vm_compute. reflexivity. Qed.
Print Assumptions C30_never_panics_refuted.

(** C31 *)
Theorem C31_visible_text : forall uw d cfg, no_references d -> no_raw_html d -> tables_ok d ->
  exists out ts, render_html uw d cfg = Some out /\ tokens out = Some ts /\ text_of ts = shown d.
Proof.
  intros uw d cfg N H T. destruct (render_html_view uw d cfg (no_raw_html_ok d H) T) as (out & A & B & C).
  exists out. eexists. repeat (split; [eassumption|]). apply shown_eq; assumption.
Qed.
Print Assumptions C31_visible_text.
Example C31_example :
  let d := Document [BHeading (Heading (Atx 1) [IText (lit "A<B")]);
     BBlockQuote [BGitHubAlert (GitHubAlert Tip [BParagraph [IStrong [IText (lit "x&y")]; ICode (lit "c")]])]] in
  no_references d /\ no_raw_html d /\ tables_ok d /\ shown d = lit "A<BTipx&yc".
Proof.
  cbv zeta. repeat split.
  all: try (intros x H; vm_compute in H; repeat (destruct H as [H|H]; [discriminate|]); exact H).
  - intros s bs H. cbn in H. repeat (destruct H as [H|H]; [discriminate|]). contradiction.
  - intros t H. cbn in H. repeat (destruct H as [H|H]; [discriminate|]). contradiction.
Qed.
