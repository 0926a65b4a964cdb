(** Property C55: what was parsed can be rendered.  Specifications:
    SpecRender.v, SpecMd.v (panics), SpecParser.v ([no_user_code]). *)
From Coq Require Import String Lia List NArith.
From Verif Require Import Chars Ast GenericFacts HtmlPrinter SpecHtml PropHtml LatexPrinter PropLatex SpecAst
  ConformanceParser ParserBlock SpecParser ParserIdent PropParser MdProps PropMd SpecRender.
Import ListNotations.
Open Scope list_scope.

Lemma displayed_sub num : forall b x, In x (displayed num b) -> In x (block_preorder b).
Proof.
  assert (HL : forall l, Forall (fun b => forall x, In x (displayed num b) -> In x (block_preorder b)) l ->
    forall x, In x (flat_map (displayed num) l) -> In x (flat_map block_preorder l)).
  { intros l H x I. apply in_flat_map in I. destruct I as (b & B & I). apply in_flat_map. exists b. split; [exact B|].
    rewrite Forall_forall in H. exact (H _ B _ I). }
  induction b as [c|h| |bs H|k items H|c|s|d|t|l bs H|t bs H|] using block_ind';
    cbn [displayed block_preorder fd_blocks fd_label ga_blocks l_items]; intros x I; auto.
  - destruct I as [I|I]; [now left|]. right. now apply HL.
  - destruct I as [I|I]; [now left|]. right. apply in_flat_map in I. destruct I as (it & B & I).
    apply in_flat_map. exists it. split; [exact B|]. apply HL; [|exact I].
    rewrite Forall_forall in H. exact (H _ B).
  - destruct (num l); [|contradiction]. destruct I as [I|I]; [now left|]. right. now apply HL.
  - destruct I as [I|I]; [now left|]. right. now apply HL.
Qed.

(** *** C55 *)
Theorem C55_html : forall cfg s r d, no_user_code cfg -> parse_markdown cfg s = Ok r d ->
  forall uwidth config, exists out, render_html uwidth d config = Some out.
Proof.
  intros cfg s r d H E uw config. destruct render_html eqn:X; [eauto|]. exfalso.
  apply C30_panics_iff in X. destruct X as (t & I & Z).
  assert (J : In (BTable t) (doc_blocks d)).
  { unfold displayed_blocks in I. apply in_flat_map in I. destruct I as (b & B & I). apply in_flat_map. exists b.
    split; [exact B|]. eapply displayed_sub; eassumption. }
  destruct (C46_tables_rectangular cfg s r d H E t J) as (N & _). contradiction.
Qed.
Print Assumptions C55_html.
Theorem C55_latex : forall cfg s r d, no_user_code cfg -> parse_markdown cfg s = Ok r d ->
  forall uwidth config, exists out, render_latex uwidth d config = Some out.
Proof. intros cfg s r d _ _ uw config. destruct (C60_latex_view uw d config) as (out & E & _). eauto. Qed.
Print Assumptions C55_latex.

Scheme narrow_mind := Minimality for narrow Sort Prop
  with narrow_blocks_mind := Minimality for narrow_blocks Sort Prop.

Section Md.
Variable uwidth : str -> nat.
Variable udigit : char -> bool.
Variable config : md_config.
Definition good (b : block) : Prop :=
  match b with
  | BTable t => md_rectangular t
  | BList (MkList k items) => items <> []
  | _ => True
  end.
Lemma panics_split : forall c i l, panics_blocks uwidth udigit config c i l ->
  (forall b, In b (flat_map block_preorder l) -> good b) ->
  narrow_blocks uwidth config c i l \/ exists b, In b (flat_map block_preorder l) /\ counts_too_far b.
Proof.
  apply (panics_blocks_mind uwidth udigit config
      (fun c i b => (forall x, In x (block_preorder b) -> good x) ->
         narrow uwidth config c i b \/ exists x, In x (block_preorder b) /\ counts_too_far x)
      (fun c i l => (forall x, In x (flat_map block_preorder l) -> good x) ->
         narrow_blocks uwidth config c i l \/ exists x, In x (flat_map block_preorder l) /\ counts_too_far x)).
  - intros c i bs W N. left. now apply narrow_here.
  - intros c i bs _ IH N. destruct IH as [IH|(x & I & IH)].
    + intros x I. apply N. now right.
    + left. now apply narrow_in_quote.
    + right. exists x. split; [now right|exact IH].
  - intros c i t bs _ IH N. destruct IH as [IH|(x & I & IH)].
    + intros x I. apply N. now right.
    + left. now apply narrow_in_alert.
    + right. exists x. split; [now right|exact IH].
  - intros c i t O N. exfalso. apply (rect_overflow udigit t); auto. apply (N (BTable t)). now left.
  - intros c i k items O N. right. exists (BList (MkList k items)). split; [now left|].
    specialize (N (BList (MkList k items)) (or_introl eq_refl)). destruct k as [s|]; cbn in O, N |- *; [|contradiction].
    destruct items; [congruence|]. cbn [List.length] in *. lia.
  - intros c i k items j task bs E _ IH N.
    assert (S : forall x, In x (flat_map block_preorder bs) -> In x (block_preorder (BList (MkList k items)))).
    { intros x I. right. apply in_flat_map. exists (ListItem task bs). split; [eapply nth_error_In; eassumption|exact I]. }
    destruct IH as [IH|(x & I & IH)].
    + intros x I. apply N. now apply S.
    + left. eapply narrow_in_item; eassumption.
    + right. exists x. split; [now apply S|exact IH].
  - intros c i l bs _ IH N. destruct IH as [IH|(x & I & IH)].
    + intros x I. apply N. now right.
    + left. now apply narrow_in_footnote.
    + right. exists x. split; [now right|exact IH].
  - intros c i b l _ IH N. destruct IH as [IH|(x & I & IH)].
    + intros x I. apply N. cbn [flat_map]. apply in_or_app. now left.
    + left. now apply narrow_first.
    + right. exists x. split; [|exact IH]. cbn [flat_map]. apply in_or_app. now left.
  - intros c i b l x I _ IH N.
    assert (S : forall y, In y (block_preorder x) -> In y (flat_map block_preorder (b :: l))).
    { intros y J. cbn [flat_map]. apply in_or_app. right. apply in_flat_map. eauto. }
    destruct IH as [IH|(y & J & IH)].
    + intros y J. apply N. now apply S.
    + left. eapply narrow_later; eassumption.
    + right. exists y. split; [now apply S|exact IH].
Qed.
Lemma narrow_panics : forall c i l, narrow_blocks uwidth config c i l -> panics_blocks uwidth udigit config c i l.
Proof.
  apply (narrow_blocks_mind uwidth config
      (fun c i b => panics uwidth udigit config c i b) (fun c i l => panics_blocks uwidth udigit config c i l)); intros.
  - now apply panics_quote.
  - now apply panics_in_quote.
  - now apply panics_alert.
  - eapply panics_item; eassumption.
  - now apply panics_footnote.
  - now apply panics_first.
  - eapply panics_later; eassumption.
Qed.
(** wherever a list counts too far the printer panics, on the way down or there *)
Lemma count_panics : forall b c i x, In x (block_preorder b) -> counts_too_far x -> panics uwidth udigit config c i b.
Proof.
  assert (HL : forall l, Forall (fun b => forall c i x, In x (block_preorder b) -> counts_too_far x -> panics uwidth udigit config c i b) l ->
    forall c i x, In x (flat_map block_preorder l) -> counts_too_far x -> panics_blocks uwidth udigit config c i l).
  { intros l H c i x I T. apply in_flat_map in I. destruct I as (b & B & I). rewrite Forall_forall in H.
    destruct l as [|b0 l]; [contradiction|]. destruct B as [<-|B].
    - apply panics_first. eapply H; [now left|eassumption|eassumption].
    - eapply panics_later; [exact B|]. eapply H; [now right|eassumption|eassumption]. }
  induction b as [c|h| |bs H|k items H|c|s|d|t|l bs H|t bs H|] using block_ind'; intros col ind x I T;
    cbn [block_preorder fd_blocks ga_blocks l_items] in I; try (destruct I as [<-|I]; [try contradiction T|try contradiction I]).
  - apply panics_in_quote. eapply HL; eassumption.
  - apply panics_numbers. destruct k as [s|]; [|contradiction T]. left. exact T.
  - apply in_flat_map in I. destruct I as ([task bs] & B & I). destruct (In_nth_error _ _ B) as (j & J).
    eapply panics_item; [exact J|]. eapply HL; [|exact I|exact T]. rewrite Forall_forall in H. exact (H _ B).
  - apply panics_footnote. eapply HL; eassumption.
  - apply panics_alert. eapply HL; eassumption.
Qed.
(** quotes outside lists start at column 0 *)
Lemma not_narrow : forall l, 2 <= md_width config ->
  (forall b q, In b (flat_map block_preorder l) -> In (BBlockQuote q) (block_preorder b) ->
    match b with BList _ | BFootnoteDefinition _ => False | _ => True end) ->
  narrow_blocks uwidth config 0 0 l -> False.
Proof.
  intros l W. pose (ok := fun l0 => forall b q, In b (flat_map block_preorder l0) -> In (BBlockQuote q) (block_preorder b) ->
    match b with BList _ | BFootnoteDefinition _ => False | _ => True end).
  intros O N. revert N O.
  cut (forall c i l, narrow_blocks uwidth config c i l -> (exists q, In (BBlockQuote q) (flat_map block_preorder l)) /\ (c = 0 -> i = 0 -> ok l -> False)).
  { intros Q N O. destruct (Q 0 0 l N) as [_ Z]. now apply Z. }
  apply (narrow_blocks_mind uwidth config
    (fun c i b => (exists q, In (BBlockQuote q) (block_preorder b)) /\ (c = 0 -> i = 0 -> ok [b] -> False))
    (fun c i l => (exists q, In (BBlockQuote q) (flat_map block_preorder l)) /\ (c = 0 -> i = 0 -> ok l -> False))).
  - intros c i bs L. split; [exists bs; now left|]. lia.
  - intros c i bs _ [_ IH]. split; [exists bs; now left|]. intros _ _ O. apply IH; auto.
    intros b q I J. apply (O b q); [|exact J]. cbn [flat_map block_preorder]. rewrite app_nil_r. now right.
  - intros c i t bs _ [[q Q] IH]. split; [exists q; now right|]. intros _ _ O. apply IH; auto.
    intros b q' I J. apply (O b q'); [|exact J]. cbn [flat_map block_preorder ga_blocks]. rewrite app_nil_r. now right.
  - intros c i k items j task bs E _ [[q Q] IH].
    assert (S : In (BBlockQuote q) (block_preorder (BList (MkList k items)))).
    { right. apply in_flat_map. exists (ListItem task bs). split; [eapply nth_error_In; eassumption|exact Q]. }
    split; [eauto|]. intros _ _ O. refine (O (BList (MkList k items)) q _ S). cbn [flat_map]. rewrite app_nil_r. now left.
  - intros c i lb bs _ [[q Q] IH].
    assert (S : In (BBlockQuote q) (block_preorder (BFootnoteDefinition (FootnoteDefinition lb bs)))) by (right; exact Q).
    split; [eauto|]. intros _ _ O. refine (O (BFootnoteDefinition (FootnoteDefinition lb bs)) q _ S). cbn [flat_map]. rewrite app_nil_r. now left.
  - intros c i b l0 _ [[q Q] IH]. split; [exists q; cbn [flat_map]; apply in_or_app; now left|].
    intros C I O. apply IH; auto. intros x q' X Y. apply (O x q'); [|exact Y]. cbn [flat_map] in X |- *. rewrite app_nil_r in X.
    apply in_or_app. now left.
  - intros c i b l0 x I _ [[q Q] IH].
    assert (S : forall y, In y (block_preorder x) -> In y (flat_map block_preorder (b :: l0))).
    { intros y J. cbn [flat_map]. apply in_or_app. right. apply in_flat_map. eauto. }
    split; [eauto|]. intros _ I0 O. apply IH; auto. intros y q' Y Z. apply (O y q'); [|exact Z]. apply S.
    cbn [flat_map] in Y. now rewrite app_nil_r in Y.
Qed.
End Md.

(** Markdown: rendering what was parsed fails exactly if a quote has no room or
    an ordered list counts beyond 64 bits *)
Theorem C55_markdown : forall cfg s r d, no_user_code cfg -> parse_markdown cfg s = Ok r d ->
  forall uwidth upper udigit big config,
  render_markdown uwidth upper udigit big d config = None <->
  document_narrow uwidth config d \/ exists b, In b (doc_blocks d) /\ counts_too_far b.
Proof.
  intros cfg s r d H E uw up ud big config. rewrite C37_panics_exactly. split.
  - intro P. apply (panics_split uw ud config 0 0 _ P). intros [c|h| |bs|[k items]|c|x|x|t|x|x|] I; cbn; auto.
    + exact (proj1 (C49_lists cfg s r d H E k items I)).
    + exact (proj2 (proj2 (C46_tables_rectangular cfg s r d H E t I))).
  - intros [N|(b & I & T)]; [now apply narrow_panics|]. unfold document_panics.
    assert (HL : forall l, In b (flat_map block_preorder l) -> panics_blocks uw ud config 0 0 l).
    { intros l I'. apply in_flat_map in I'. destruct I' as (x & X & I'). destruct l as [|b0 l]; [contradiction|].
      destruct X as [<-|X]; [apply panics_first|eapply panics_later; [exact X|]]; eapply count_panics; eassumption. }
    apply HL. exact I.
Qed.
Print Assumptions C55_markdown.
(** in particular not if the width is at least 2, quotes stand outside lists and
    footnotes, and no list counts too far *)
Theorem C55_markdown_renders : forall cfg s r d, no_user_code cfg -> parse_markdown cfg s = Ok r d ->
  forall uwidth upper udigit big config, 2 <= md_width config -> quotes_outside_lists d ->
  (forall b, In b (doc_blocks d) -> ~ counts_too_far b) ->
  exists out, render_markdown uwidth upper udigit big d config = Some out.
Proof.
  intros cfg s r d H E uw up ud big config W Q T. destruct render_markdown eqn:X; [eauto|]. exfalso.
  apply (C55_markdown cfg s r d H E) in X. destruct X as [X|(b & I & X)]; [|exact (T b I X)].
  eapply not_narrow; [exact W| |exact X]. exact Q.
Qed.
Print Assumptions C55_markdown_renders.
(** such documents can be parsed: *)
Theorem C55_overflow_reachable : exists s d, parse_markdown test_config s = Ok [] d /\
  forall uwidth upper udigit big config, render_markdown uwidth upper udigit big d config = None.
Proof.
  exists (lit "18446744073709551615. a"). eexists. split; [vm_compute; reflexivity|]. intros. apply panics_exactly.
  apply panics_first. apply panics_numbers. left. vm_compute. reflexivity.
Qed.
Print Assumptions C55_overflow_reachable.
Example C55_nonvacuous : exists d, parse_markdown test_config (lit "> > a

- 1. b") = Ok [] d /\ quotes_outside_lists d /\ (forall b, In b (doc_blocks d) -> ~ counts_too_far b).
Proof.
  eexists. split; [vm_compute; reflexivity|]. split.
  - intros b q I J. cbn in I. repeat (destruct I as [<-|I]; [try exact Logic.I; cbn in J; repeat (destruct J as [J|J]; [discriminate J|]); exact J|]). destruct I.
  - intros b I. cbn in I. repeat (destruct I as [<-|I]; [cbn; intro X; try exact X; vm_compute in X; discriminate X|]). contradiction.
Qed.
