(** C107: the size of the HTML against the size of the document.  Specification:
    SpecOutSize.v, SpecSize.v. *)
From Coq Require Import String List Lia.
From Verif Require Import SpecParser Nom ParserInline ParserInlineFacts ParserBlock ParserTotal PropParser PropSize ConfigBuild SpecOutSize HtmlFacts HtmlProps HtmlSize.
Import ListNotations.
Open Scope list_scope.

Lemma fits_starts d : numbers_fit d -> Forall start_fits (doc_blocks d).
Proof. intros [H _]. apply Forall_forall. intros b I. destruct b as [| | | |[[n|k] items]| | | | | | |]; try exact Logic.I. cbn. eapply H, I. Qed.
Lemma fits_number d x n : numbers_fit d -> footnote_number d x = Some n -> (n < 2 ^ 64)%N.
Proof.
  intros [_ H] E. apply footnote_number_spec in E as [L E]. assert (X : N.to_nat (n - 1) < List.length (first_occurrences (direct_refs d))) by (apply nth_error_Some; congruence).
  assert (Y : List.length (first_occurrences (direct_refs d)) <= List.length (direct_refs d)).
  { apply NoDup_incl_length; [apply first_occurrences_NoDup|]. intros y I. now apply first_occurrences_In. }
  assert (Z : (n <= N.of_nat (List.length (direct_refs d)))%N) by (unfold str in *; unfold char in *; lia). eapply N.le_lt_trans; eassumption.
Qed.
Lemma resolve_in d l x : resolve d l = Some x -> In x (definitions d).
Proof. unfold resolve. intro E. apply find_some in E as [I _]. now apply in_rev in I. Qed.

(** The HTML of a document is linear in the size of the document, the factor
    depending on the longest link target and the prefix of the anchors only. *)
Theorem C107_html_size : forall uw cfg d out M, numbers_fit d ->
  (forall x, In x (definitions d) -> target_size x <= M) ->
  render_html uw d cfg = Some out ->
  List.length out <= doc_size d * (2000 + 10 * M + 10 * List.length (hc_anchor_prefix cfg)).
Proof.
  intros uw cfg d out M F HM E. rewrite render_html_dtext in E. apply dl_text in E. unfold char, str in *. rewrite E. clear E.
  apply (dl_children _ _ _ block_size). pose proof (starts_of (d_blocks d) (fits_starts d F)) as S.
  eapply Forall_impl; [|exact S]. intros b Fb. apply (block_len (html_state_new cfg d) _ M); [reflexivity| | |exact Fb].
  - intros l x E. rewrite get_link_definition_eq in E. apply resolve_in in E. now apply HM.
  - intros l n E. rewrite get_footnote_index_eq in E. eapply fits_number; eassumption.
Qed.
Print Assumptions C107_html_size.

(** ** In terms of the document alone *)
Lemma total_in A (f : A -> nat) x l : In x l -> f x <= total (map f l).
Proof. intro I. induction l as [|y l IH]; [contradiction|]. cbn [map]. rewrite total_cons. destruct I as [->|I]; [lia|]. specialize (IH I). lia. Qed.
Lemma below_size b : forall b', In b' (block_preorder b) -> block_size b' <= block_size b.
Proof.
  assert (CH : forall l, Forall (fun b => forall b', In b' (block_preorder b) -> block_size b' <= block_size b) l ->
     forall b', In b' (flat_map block_preorder l) -> block_size b' <= total (map block_size l)).
  { intros l H b' I. apply in_flat_map in I as (b0 & I0 & I). rewrite Forall_forall in H. etransitivity; [apply (H b0 I0 b' I)|]. now apply total_in. }
  induction b as [c|h| |bs H|k items H|c|s|d|t|l bs H|t bs H|] using block_ind'; intros b' [<-|I]; try apply le_n; try contradiction; cbn [block_preorder l_items fd_blocks ga_blocks] in I; cbn [block_size].
  - specialize (CH bs H b' I). lia.
  - apply in_flat_map in I as (it & I0 & I). rewrite Forall_forall in H. specialize (CH _ (H it I0) b' I).
    pose proof (total_in _ (fun it => 1 + total (map block_size (li_blocks it))) it items I0) as X. cbv beta in X. lia.
  - specialize (CH bs H b' I). lia.
  - specialize (CH bs H b' I). lia.
Qed.
Lemma target_below d x : In x (definitions d) -> target_size x <= doc_size d.
Proof.
  unfold definitions, doc_blocks, doc_size, blocks_size. intro I. apply in_flat_map in I as (b & I & Ix). apply in_flat_map in I as (b0 & I0 & I).
  destruct b; try contradiction. destruct Ix as [<-|[]]. apply below_size in I. etransitivity; [|apply (total_in _ block_size _ _ I0)]. etransitivity; [|exact I].
  destruct d0 as [l ds t]. unfold target_size. cbn [ld_destination ld_title block_size]. lia.
Qed.
Theorem C107_html_quadratic : forall uw cfg d out, numbers_fit d -> render_html uw d cfg = Some out ->
  let n := doc_size d in List.length out <= n * (2000 + 10 * n + 10 * List.length (hc_anchor_prefix cfg)).
Proof. intros uw cfg d out F E n. apply (C107_html_size uw cfg d out n F); [apply target_below|exact E]. Qed.
Print Assumptions C107_html_quadratic.
Theorem C107_html_linear : forall uw cfg d out, numbers_fit d -> definitions d = [] -> render_html uw d cfg = Some out ->
  List.length out <= doc_size d * (2000 + 10 * List.length (hc_anchor_prefix cfg)).
Proof. intros uw cfg d out F N E. apply (C107_html_size uw cfg d out 0 F); [|exact E]. rewrite N. intros x []. Qed.
Print Assumptions C107_html_linear.

(** With definitions it is not linear: every reference repeats its target. *)
Definition many_references (n : nat) : document :=
  Document [BDefinition (LinkDefinition [IText (lit "a")] (repeat (ch "u") n) None);
            BParagraph (repeat (ILinkReference (LinkReference [IText (lit "a")] [])) n)].
Lemma many_definition cfg n : get_link_definition (html_state_new cfg (many_references n)) [IText (lit "a")] = Some (LinkDefinition [IText (lit "a")] (repeat (ch "u") n) None).
Proof. rewrite get_link_definition_eq. reflexivity. Qed.
Lemma total_same A (f : A -> nat) x n : total (map f (repeat x n)) = n * f x.
Proof. induction n as [|n IH]; [reflexivity|]. cbn [repeat map]. rewrite total_cons, IH. lia. Qed.
Lemma many_size n : doc_size (many_references n) = 4 + 4 * n.
Proof.
  unfold doc_size, many_references, blocks_size. cbn [d_blocks map]. rewrite !total_cons. cbn [block_size text_size]. unfold inlines_size. rewrite total_same, repeat_length.
  cbn [map lit list_ascii_of_string]. rewrite ?total_cons. cbn [inline_size total map fold_right List.length]. lia.
Qed.
Lemma escape_u n : escape (repeat (ch "u") n) = repeat (ch "u") n.
Proof. induction n as [|n IH]; [reflexivity|]. cbn [repeat]. unfold escape in *. cbn [flat_map]. rewrite IH. reflexivity. Qed.
Lemma many_long cfg n : n * n <= dl (blocks_to_doc (html_state_new cfg (many_references n)) (d_blocks (many_references n))).
Proof.
  unfold blocks_to_doc. rewrite dl_concat. unfold many_references at 2. cbn [d_blocks map]. rewrite !total_cons. cbn [block_to_doc dl]. rewrite dl_tag. unfold inlines_to_doc. rewrite dl_concat, map_map.
  rewrite total_same. cbn [inline_to_doc lr_label]. rewrite many_definition, dl_tag, attrs_cons. cbn [fst snd ld_destination]. rewrite !escape_u, repeat_length. nia.
Qed.
Lemma many_fit n : numbers_fit (many_references n).
Proof.
  split.
  - intros k items I. cbn in I. repeat destruct I as [I|I]; try discriminate; contradiction.
  - assert (E : direct_refs (many_references n) = []); [|now rewrite E].
    unfold direct_refs, many_references, doc_blocks. cbn. rewrite app_nil_r. induction n as [|n IH]; [reflexivity|]. cbn. exact IH.
Qed.
Lemma many_renders uw cfg n : render_html uw (many_references n) cfg <> None.
Proof. intro E. apply render_html_none in E as (t & I & _). cbn in I. repeat destruct I as [I|I]; try discriminate; contradiction.
Qed.
Theorem C107_html_refuted : forall uw cfg c, exists d out, numbers_fit d /\ render_html uw d cfg = Some out /\ c * doc_size d < List.length out.
Proof.
  intros uw cfg c. pose (n := 8 * c + 1). exists (many_references n). destruct (render_html uw (many_references n) cfg) as [out|] eqn:E; [|now apply many_renders in E].
  exists out. split; [apply many_fit|]. split; [reflexivity|]. rewrite render_html_dtext in E. apply dl_text in E. pose proof (many_long cfg n) as H. rewrite <- E in H.
  rewrite many_size. unfold char, str in *. eapply Nat.lt_le_trans; [|exact H]. subst n. nia.
Qed.
Print Assumptions C107_html_refuted.

(** ** From source to output *)
Lemma refs_size l : List.length (inline_refs l) <= inlines_size l.
Proof.
  induction l as [|i l IH]; [apply le_n|]. unfold inline_refs, inlines_size in *. cbn [flat_map map]. rewrite app_length, total_cons. assert (1 <= inline_size i) by (destruct i; cbn [inline_size]; lia).
  destruct i; cbn [List.length]; lia.
Qed.
Lemma sizes_app l l' : inlines_size (l ++ l') = inlines_size l + inlines_size l'.
Proof. unfold inlines_size. rewrite map_app. induction l as [|x l IH]; [reflexivity|]. cbn [map app]. rewrite !total_cons. lia. Qed.
Lemma refs_below b : List.length (flat_map (fun b => inline_refs (block_inlines b)) (block_preorder b)) <= block_size b.
Proof.
  set (R := fun b => inline_refs (block_inlines b)).
  assert (CH : forall l, Forall (fun b => List.length (flat_map R (block_preorder b)) <= block_size b) l -> List.length (flat_map R (flat_map block_preorder l)) <= total (map block_size l)).
  { intros l H. induction H; [apply le_n|]. cbn [flat_map map]. rewrite flat_map_app, app_length, total_cons. lia. }
  assert (OWN : forall b, List.length (R b) <= match b with BParagraph _ | BHeading _ | BDefinition _ | BTable _ => block_size b | _ => 0 end).
  { intros b0. unfold R. destruct b0 as [c|[k c]| | | | | |[l d t]|[rows al]| | |]; cbn [block_inlines h_content ld_label t_rows block_size]; try apply le_n; try (pose proof (refs_size c); lia).
    - pose proof (refs_size l). lia.
    - pose proof (refs_size (concat (concat rows))) as X. assert (inlines_size (concat (concat rows)) <= total (map (fun row => 1 + total (map (fun c => 1 + inlines_size c) row)) rows)); [|lia].
      clear X. induction rows as [|row rows IH]; [apply le_n|]. cbn [concat map]. rewrite concat_app, sizes_app, total_cons.
      assert (inlines_size (concat row) <= total (map (fun c => 1 + inlines_size c) row)); [|lia]. clear. induction row as [|c row IH]; [apply le_n|]. cbn [concat map]. rewrite sizes_app, total_cons. lia. }
  induction b as [c|h| |bs H|k items H|c|s|d|t|l bs H|t bs H|] using block_ind'; cbn [block_preorder flat_map l_items fd_blocks ga_blocks]; rewrite app_length;
    try match goal with |- context [R ?b] => pose proof (OWN b) as O end; cbv iota in O; cbn [flat_map List.length]; try lia; cbn [block_size].
  - specialize (CH bs H). lia.
  - assert (List.length (flat_map R (flat_map (fun it => flat_map block_preorder (li_blocks it)) items)) <= total (map (fun it => 1 + total (map block_size (li_blocks it))) items)); [|lia].
    clear O. induction H as [|it items Hit _ IH]; [apply le_n|]. cbn [flat_map map]. rewrite flat_map_app, app_length, total_cons. specialize (CH _ Hit). lia.
  - specialize (CH bs H). lia.
  - specialize (CH bs H). lia.
Qed.
Lemma direct_below d : List.length (direct_refs d) <= doc_size d.
Proof.
  unfold direct_refs, doc_blocks, doc_size, blocks_size. induction (d_blocks d) as [|b l IH]; [apply le_n|]. cbn [flat_map map]. rewrite flat_map_app, app_length, total_cons. pose proof (refs_below b). lia.
Qed.
Lemma parsed_fit cfg s d : no_user_code cfg -> parse_markdown cfg s = Ok [] d -> (N.of_nat (doc_size d) < 2 ^ 64)%N -> numbers_fit d.
Proof.
  intros Hu E L. split.
  - intros n items I. destruct (C49_lists cfg s _ d Hu E _ _ I) as [_ H]. specialize (H n eq_refl). eapply N.le_lt_trans; [exact H|]. reflexivity.
  - pose proof (direct_below d). eapply N.le_lt_trans; [|exact L]. unfold str in *. unfold char in *. lia.
Qed.
(** Where neither references nor definitions nor tables are read, the HTML is
    linear in the source ... *)
Theorem C107_source_linear : forall cfg uw c s d out, no_user_code cfg -> small_tables cfg -> i_text cfg <> Ignore -> b_paragraph cfg <> Ignore ->
  i_reference_link cfg <> Parse -> b_table cfg <> Parse -> b_link_definition cfg <> Parse ->
  (N.of_nat (6 * List.length s) < 2 ^ 64)%N ->
  parse_markdown cfg s = Ok [] d -> render_html uw d c = Some out ->
  List.length out <= 6 * List.length s * (2000 + 10 * List.length (hc_anchor_prefix c)).
Proof.
  intros cfg uw c s d out Hu Hs Ht Hp R T D L E O. pose proof (C99_linear_partial cfg s d Hu Hs Ht Hp R T E) as X.
  assert (F : numbers_fit d). { eapply parsed_fit; [eassumption..|]. eapply N.le_lt_trans; [|exact L]. unfold str in *. unfold char in *. lia. }
  assert (N : definitions d = []).
  { destruct (definitions d) as [|x l] eqn:Ed; [reflexivity|]. exfalso. assert (I : In x (definitions d)) by (rewrite Ed; now left).
    unfold definitions in I. apply in_flat_map in I as (b & I & Ix). destruct b; try contradiction.
    destruct (C50_no_switched_off_block cfg s _ d Hu E _ I) as [N1 N2]. cbn [block_switch] in N1, N2.
    destruct Hu as (_ & Hu & _). rewrite Forall_forall in Hu. specialize (Hu (b_link_definition cfg) ltac:(cbn; tauto)). destruct (b_link_definition cfg); cbn in Hu; congruence || contradiction. }
  pose proof (C107_html_linear uw c d out F N O) as Y. etransitivity; [exact Y|]. apply Nat.mul_le_mono_r. exact X.
Qed.
Print Assumptions C107_source_linear.
(** ... and where references are not read, polynomial. *)
Theorem C107_source_polynomial : forall cfg uw c s d out, no_user_code cfg -> small_tables cfg -> i_text cfg <> Ignore -> b_paragraph cfg <> Ignore ->
  i_reference_link cfg <> Parse -> let n := List.length s in let m := n * n + 6 * n in
  (N.of_nat m < 2 ^ 64)%N ->
  parse_markdown cfg s = Ok [] d -> render_html uw d c = Some out ->
  List.length out <= m * (2000 + 10 * m + 10 * List.length (hc_anchor_prefix c)).
Proof.
  intros cfg uw c s d out Hu Hs Ht Hp R n m L E O. pose proof (C99_quadratic_partial cfg s d Hu Hs Ht Hp R E) as X. cbv zeta in X. fold n in X. fold m in X.
  assert (F : numbers_fit d). { eapply parsed_fit; [eassumption..|]. eapply N.le_lt_trans; [|exact L]. lia. }
  pose proof (C107_html_quadratic uw c d out F O) as Y. cbv zeta in Y. etransitivity; [exact Y|]. apply Nat.mul_le_mono; [exact X|]. lia.
Qed.
Print Assumptions C107_source_polynomial.

Definition sized_sample : document :=
  Document [BDefinition (LinkDefinition [IText (lit "a")] (lit "http://x/?a&b") (Some (lit "T")));
            BParagraph [IText (lit "x < y "); ILinkReference (LinkReference [IText (lit "a")] [IText (lit "a")])];
            BList (MkList (Ordered 7) [ListItem (Some Complete) [BParagraph [IFootnoteReference (lit "n")]]]);
            BFootnoteDefinition (FootnoteDefinition (lit "n") [BGitHubAlert (GitHubAlert Tip [])])].
Example C107_example : exists out, numbers_fit sized_sample /\ render_html (fun _ => 0) sized_sample (HtmlConfig 80 []) = Some out /\ doc_size sized_sample = 38 /\ List.length out = 1302.
Proof.
  eexists. split; [split; [|vm_compute; reflexivity]|]; [|vm_compute; repeat split; reflexivity].
  intros n items I. cbn in I. repeat destruct I as [I|I]; try discriminate; [injection I as <- _; reflexivity|contradiction].
Qed.
Definition small_cfg : config :=
  ConfigBuild.with_block_table_behavior (ConfigBuild.with_block_link_definition_behavior
    (ConfigBuild.with_inline_reference_link_behavior (default_config (fun _ => None) (fun _ => false) (fun c => [c])) Ignore) Ignore) Ignore.
Example C107_source_example : let s := lit "# A & B" ++ [10%N] ++ lit "* [x](u) [^n]" in
  no_user_code small_cfg /\ small_tables small_cfg /\ i_text small_cfg <> Ignore /\ b_paragraph small_cfg <> Ignore /\
  i_reference_link small_cfg <> Parse /\ b_table small_cfg <> Parse /\ b_link_definition small_cfg <> Parse /\
  exists d out, parse_markdown small_cfg s = Ok [] d /\ render_html (fun _ => 0) d (HtmlConfig 80 []) = Some out /\ List.length out = 149.
Proof.
  intro s. split; [repeat split; repeat constructor|]. split; [split; [discriminate|intro c; cbn; lia]|]. repeat (split; [discriminate|]).
  eexists _, _. split; [vm_compute; reflexivity|]. split; vm_compute; reflexivity.
Qed.

(** ** LaTeX *)
From Verif Require LatexSize.
From Verif Require Import SpecLatex LatexFacts.
Lemma layout_length t s : layout t s -> List.length t = List.length s.
Proof. induction 1; cbn [List.length]; congruence. Qed.
Lemma find_rev_in d l x : tex_resolve d l = Some x -> In x (outer_definitions d).
Proof. unfold tex_resolve. intro E. apply find_some in E as [I _]. now apply in_rev in I. Qed.
Lemma position_le x l n : last_position x l = Some n -> (n <= N.of_nat (List.length l))%N.
Proof.
  revert n. induction l as [|y l IH]; cbn [last_position List.length]; intros n E; [discriminate|].
  destruct (last_position x l) as [m|]; [injection E as <-; specialize (IH m eq_refl); lia|]. destruct (str_eqb x y); [injection E as <-; lia|discriminate].
Qed.
(** The LaTeX of a document is linear in the size of the document, the factor
    depending on the longest link target only. *)
Theorem C107_latex_size : forall uw cfg d out M, (N.of_nat (List.length (footnote_labels d)) < 2 ^ 64)%N ->
  (forall x, In x (outer_definitions d) -> List.length (ld_destination x) <= M) ->
  render_latex uw d cfg = Some out ->
  List.length out <= doc_size d * (200 + 18 * M).
Proof.
  intros uw cfg d out M F HM E. destruct (render_latex_view uw d cfg) as (o & Eo & L). rewrite E in Eo. injection Eo as <-.
  apply layout_length in L. unfold char in *. rewrite <- L. unfold tex_view, doc_size, blocks_size. apply (LatexSize.sep_scaled (200 + 18 * M) M (le_n _) _ _ block_size (nl ++ nl)); [cbn; lia|]. apply Forall_forall. intros b _.
  pose proof (LatexSize.tblock_len cfg (tex_number d) (tex_resolve d) (200 + 18 * M) M (le_n _)) as X. etransitivity; [|apply X].
  - lia.
  - intros l x R. apply HM. now apply find_rev_in in R.
  - intros l n R. unfold tex_number in R. apply position_le in R. eapply N.le_lt_trans; eassumption.
Qed.
Print Assumptions C107_latex_size.
Lemma outer_below b : forall b', In b' (outer b) -> block_size b' <= block_size b.
Proof.
  assert (CH : forall l, Forall (fun b => forall b', In b' (outer b) -> block_size b' <= block_size b) l ->
     forall b', In b' (flat_map outer l) -> block_size b' <= total (map block_size l)).
  { intros l H b' I. apply in_flat_map in I as (b0 & I0 & I). rewrite Forall_forall in H. etransitivity; [apply (H b0 I0 b' I)|]. now apply total_in. }
  induction b as [c|h| |bs H|k items H|c|s|d|t|l bs H|t bs H|] using block_ind'; intros b' [<-|I]; try apply le_n; try contradiction; cbn [outer l_items fd_blocks ga_blocks] in I; cbn [block_size].
  - specialize (CH bs H b' I). lia.
  - apply in_flat_map in I as (it & I0 & I). rewrite Forall_forall in H. specialize (CH _ (H it I0) b' I).
    pose proof (total_in _ (fun it => 1 + total (map block_size (li_blocks it))) it items I0) as X. cbv beta in X. lia.
  - specialize (CH bs H b' I). lia.
Qed.
Lemma destination_below d x : In x (outer_definitions d) -> List.length (ld_destination x) <= doc_size d.
Proof.
  unfold outer_definitions, outer_blocks, doc_size, blocks_size. intro I. apply in_flat_map in I as (b & I & Ix). apply in_flat_map in I as (b0 & I0 & I).
  destruct b; try contradiction. destruct Ix as [<-|[]]. apply outer_below in I. etransitivity; [|apply (total_in _ block_size _ _ I0)]. etransitivity; [|exact I].
  destruct d0 as [l ds t]. cbn [ld_destination block_size]. lia.
Qed.
Theorem C107_latex_quadratic : forall uw cfg d out, (N.of_nat (List.length (footnote_labels d)) < 2 ^ 64)%N -> render_latex uw d cfg = Some out ->
  let n := doc_size d in List.length out <= n * (200 + 18 * n).
Proof. intros uw cfg d out F E n. apply (C107_latex_size uw cfg d out n F); [apply destination_below|exact E]. Qed.
Print Assumptions C107_latex_quadratic.
Theorem C107_latex_linear : forall uw cfg d out, (N.of_nat (List.length (footnote_labels d)) < 2 ^ 64)%N -> outer_definitions d = [] -> render_latex uw d cfg = Some out ->
  List.length out <= doc_size d * 200.
Proof. intros uw cfg d out F N E. apply (C107_latex_size uw cfg d out 0 F); [|exact E]. rewrite N. intros x []. Qed.
Print Assumptions C107_latex_linear.

Lemma many_latex cfg n : n * n <= List.length (tex_view cfg (many_references n)).
Proof.
  unfold tex_view, many_references. cbn [d_blocks map tex_block sep_by]. rewrite !app_length. unfold tex_inlines.
  match goal with |- context [flat_map (tex_inline ?f ?g) _] => set (N := f); set (D := g) end.
  assert (E : forall k, k * n <= List.length (flat_map (tex_inline N D) (repeat (ILinkReference (LinkReference [IText (lit "a")] [])) k))); [|specialize (E n); lia].
  assert (ED : D [IText (lit "a")] = Some (LinkDefinition [IText (lit "a")] (repeat (ch "u") n) None)).
  { unfold D, tex_resolve, outer_definitions, outer_blocks. cbn [d_blocks flat_map outer app rev]. reflexivity. }
  assert (EU : escape_latex (repeat (ch "u") n) = repeat (ch "u") n).
  { clear. induction n as [|n IH]; [reflexivity|]. cbn [repeat]. unfold escape_latex in *. cbn [flat_map]. rewrite IH. reflexivity. }
  clearbody D. induction k as [|k IH]; [apply Nat.le_0_l|]. cbn [repeat flat_map]. rewrite app_length. cbn [tex_inline lr_label]. rewrite ED. cbn [ld_destination].
  unfold cmd_, braces, esc. rewrite EU. rewrite !app_length. unfold chs at 1. rewrite map_length, repeat_length. cbn [Nat.mul]. lia.
Qed.
(** With definitions it is not linear either. *)
Theorem C107_latex_refuted : forall uw cfg c, exists d out, footnote_labels d = [] /\ render_latex uw d cfg = Some out /\ c * doc_size d < List.length out.
Proof.
  intros uw cfg c. pose (n := 8 * c + 1). exists (many_references n). destruct (render_latex_view uw (many_references n) cfg) as (out & E & L).
  exists out. split; [reflexivity|]. split; [exact E|]. apply layout_length in L. pose proof (many_latex cfg n) as H. rewrite L in H.
  rewrite many_size. unfold char, str in *. eapply Nat.lt_le_trans; [|exact H]. subst n. nia.
Qed.
Print Assumptions C107_latex_refuted.
Example C107_latex_example : exists out, footnote_labels sized_sample = [lit "n"] /\ List.length (outer_definitions sized_sample) = 1 /\
  render_latex (fun _ => 0) sized_sample (LatexConfig 80 Booktabs Minted) = Some out /\ List.length out = 142.
Proof. eexists. split; [reflexivity|]. split; [reflexivity|]. split; vm_compute; reflexivity. Qed.

(** From source to LaTeX. *)
Lemma labels_below d : List.length (footnote_labels d) <= doc_size d.
Proof.
  set (R := fun b => match b with BFootnoteDefinition f => [fd_label f] | _ => [] end).
  assert (B : forall b, List.length (flat_map R (outer b)) <= block_size b).
  { assert (CH : forall l, Forall (fun b => List.length (flat_map R (outer b)) <= block_size b) l -> List.length (flat_map R (flat_map outer l)) <= total (map block_size l)).
    { intros l H. induction H; [apply le_n|]. cbn [flat_map map]. rewrite flat_map_app, app_length, total_cons. lia. }
    induction b as [c|h| |bs H|k items H|c|s|x|t|l bs H|t bs H|] using block_ind'; cbn [outer flat_map l_items fd_blocks ga_blocks R app List.length]; try lia; cbn [block_size]; try lia.
    - specialize (CH bs H). lia.
    - assert (List.length (flat_map R (flat_map (fun it => flat_map outer (li_blocks it)) items)) <= total (map (fun it => 1 + total (map block_size (li_blocks it))) items)); [|lia].
      induction H as [|it items Hit _ IH]; [apply le_n|]. cbn [flat_map map]. rewrite flat_map_app, app_length, total_cons. specialize (CH _ Hit). lia.
    - specialize (CH bs H). lia. }
  unfold footnote_labels, outer_blocks, doc_size, blocks_size. fold R. induction (d_blocks d) as [|b l IH]; [apply le_n|]. cbn [flat_map map]. rewrite flat_map_app, app_length, total_cons. specialize (B b). lia.
Qed.
Theorem C107_source_latex : forall cfg uw c s d out, no_user_code cfg -> small_tables cfg -> i_text cfg <> Ignore -> b_paragraph cfg <> Ignore ->
  i_reference_link cfg <> Parse -> let n := List.length s in let m := n * n + 6 * n in
  (N.of_nat m < 2 ^ 64)%N ->
  parse_markdown cfg s = Ok [] d -> render_latex uw d c = Some out ->
  List.length out <= m * (200 + 18 * m).
Proof.
  intros cfg uw c s d out Hu Hs Ht Hp R n m L E O. pose proof (C99_quadratic_partial cfg s d Hu Hs Ht Hp R E) as X. cbv zeta in X. fold n in X. fold m in X.
  assert (F : (N.of_nat (List.length (footnote_labels d)) < 2 ^ 64)%N). { eapply N.le_lt_trans; [|exact L]. pose proof (labels_below d). unfold str in *. unfold char in *. lia. }
  pose proof (C107_latex_quadratic uw c d out F O) as Y. cbv zeta in Y. etransitivity; [exact Y|]. apply Nat.mul_le_mono; [exact X|]. lia.
Qed.
Print Assumptions C107_source_latex.
