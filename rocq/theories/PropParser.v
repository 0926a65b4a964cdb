(** Properties C42-C54, C56-C58, C61-C63: the parser.  Specifications: SpecAst.v
    (preorder traversals), SpecParser.v.  A parser result is [Ok rest value] or
    [Err]; [Oof] is the model's recursion fuel running out, which the theorems
    show impossible.  [custom_ok]: the user's custom parsers, if any, return
    strictly shorter suffixes of their input (nom's own requirement). *)
From Coq Require Import String.
From Verif Require Import SpecNum NumFacts.
From Verif Require Import ParserText ParserIdent ConformanceParser.
Import ListNotations.
Open Scope list_scope.

(** ** C42: parsing succeeds *)
Theorem C42_parse_total : forall cfg, custom_ok cfg -> i_text cfg <> Ignore -> b_paragraph cfg <> Ignore ->
  forall s, exists d, parse_markdown cfg s = Ok [] d.
Proof. exact parse_total. Qed.
Print Assumptions C42_parse_total.
Theorem C42_default_total : forall entities punct upper s, exists d,
  parse_markdown (default_config entities punct upper) s = Ok [] d.
Proof. intros. apply parse_total; try discriminate. split; discriminate. Qed.
Print Assumptions C42_default_total.
(** with any configuration the parser terminates *)
Theorem C42_terminates : forall cfg, custom_ok cfg -> forall s, parse_markdown cfg s <> Oof.
Proof. exact parse_markdown_no_oof. Qed.
Print Assumptions C42_terminates.
(** the hypotheses on the switches are needed *)
Theorem C42_ignored_text_fails : exists cfg, custom_ok cfg /\ i_text cfg = Ignore /\ parse_markdown cfg (lit "a") = Err.
Proof.
  exists (Config false (fun _ => None) Parse Parse Parse Parse Parse Parse Parse Parse Parse Parse Parse Parse
    Parse Parse Parse Parse Parse Parse Parse Parse Parse Ignore None None (fun _ => false) (fun c => [c])).
  split; [split; discriminate|]. split; [reflexivity|]. vm_compute. reflexivity.
Qed.
Print Assumptions C42_ignored_text_fails.
Example C42_example : parse_markdown test_config (lit "*a [b](") =
  Ok [] (Document [BParagraph [IText (lit "*a "); ILinkReference (LinkReference [IText (lit "b")] [IText (lit "b")]); IText (lit "(")]]).
Proof. vm_compute. reflexivity. Qed.

(** ** C43: the inline parser takes all of its input, so what the callers
    discard is empty *)
Theorem C43_inline_consumes_all : forall cfg, custom_ok cfg -> i_text cfg <> Ignore -> forall s,
  (exists l, inline_many0 cfg s = Ok [] l) /\ (s <> [] -> exists l, inline_many1 cfg s = Ok [] l).
Proof. intros cfg H1 H2 s. split; [now apply inline_many0_all|now apply inline_many1_all]. Qed.
Print Assumptions C43_inline_consumes_all.
Example C43_example : inline_many1 test_config (lit "a ** [x] <") =
  Ok [] [IText (lit "a ** "); ILinkReference (LinkReference [IText (lit "x")] [IText (lit "x")]); IText (lit " <")].
Proof. vm_compute. reflexivity. Qed.

(** ** C44: what is left after parsing the content of a container is blank *)
Theorem C44_rest_blank : forall cfg, custom_ok cfg -> i_text cfg <> Ignore -> b_paragraph cfg <> Ignore -> forall s r l,
  (many0 (block_ cfg) s = Ok r l \/ many1 (block_ cfg) s = Ok r l) -> blank r.
Proof. exact blocks_blank. Qed.
Print Assumptions C44_rest_blank.
(** and parsing the content of a container never fails *)
Theorem C44_many0_succeeds : forall cfg, custom_ok cfg -> i_text cfg <> Ignore -> b_paragraph cfg <> Ignore -> forall s,
  exists r l, many0 (block_ cfg) s = Ok r l.
Proof.
  intros cfg Hc Ht Hp s. destruct (many0_ok _ (block_ cfg)) with (s := s) as (r & l & E & _).
  - now apply eats_block_.
  - apply rel_safe, rel_block_, Hc.
  - eauto.
Qed.
Print Assumptions C44_many0_succeeds.
Example C44_example : exists l, many0 (block_ test_config) (lit "a

 ") = Ok [10; 32]%N l.
Proof. eexists. vm_compute. reflexivity. Qed.

(** ** C45 - C49: shape of parsed documents.  First for the configurations
    without user code, then for user code that keeps the property. *)
Theorem C45_heading_levels : forall cfg s r d, no_user_code cfg -> parse_markdown cfg s = Ok r d ->
  forall n c, In (BHeading (Heading (Atx n) c)) (doc_blocks d) -> (1 <= n <= 6)%N.
Proof.
  intros cfg s r d H E n c Hin. pose proof (heading_levels cfg (no_user_block _ _ H) s r d E) as X.
  rewrite Forall_forall in X. exact (X _ Hin).
Qed.
Print Assumptions C45_heading_levels.
Theorem C45_heading_levels_user : forall cfg,
  block_user_code_keeps (fun b => Forall heading_level_ok (block_preorder b)) cfg ->
  forall s r d, parse_markdown cfg s = Ok r d -> Forall heading_level_ok (doc_blocks d).
Proof. exact heading_levels. Qed.
Print Assumptions C45_heading_levels_user.
Example C45_example : parse_markdown test_config (lit ">###### x
####### y") = Ok [] (Document [BBlockQuote [BHeading (Heading (Atx 6) [IText (lit "x")])]; BParagraph [IText (lit "####### y")]]).
Proof. vm_compute. reflexivity. Qed.

Theorem C46_tables_rectangular : forall cfg s r d, no_user_code cfg -> parse_markdown cfg s = Ok r d ->
  forall t, In (BTable t) (doc_blocks d) -> rectangular t.
Proof.
  intros cfg s r d H E t Hin. pose proof (tables_rectangular cfg (no_user_block _ _ H) s r d E) as X.
  rewrite Forall_forall in X. exact (X _ Hin).
Qed.
Print Assumptions C46_tables_rectangular.
Theorem C46_tables_rectangular_user : forall cfg,
  block_user_code_keeps (fun b => Forall table_ok (block_preorder b)) cfg ->
  forall s r d, parse_markdown cfg s = Ok r d -> Forall table_ok (doc_blocks d).
Proof. exact tables_rectangular. Qed.
Print Assumptions C46_tables_rectangular_user.
Example C46_example : parse_markdown test_config (lit "|a|b|
|:-|-:|
|1|
|1|2|3|") = Ok [] (Document [BTable (Table
   [[[IText (lit "a")]; [IText (lit "b")]]; [[IText (lit "1")]; [IText []]]; [[IText (lit "1")]; [IText (lit "2")]]]
   [ALeft; ARight])]).
Proof. vm_compute. reflexivity. Qed.

Theorem C47_texts_merged : forall cfg s r d, no_user_code cfg -> parse_markdown cfg s = Ok r d ->
  Forall merged (doc_inline_lists d).
Proof.
  intros cfg s r d H. apply texts_merged; [now apply no_user_inline|now apply no_user_block].
Qed.
Print Assumptions C47_texts_merged.
Theorem C47_texts_merged_user : forall cfg,
  inline_user_code_keeps (fun i => Forall merged (flat_map inline_lists (inline_preorder i))) cfg ->
  block_user_code_keeps (fun b => Forall merged (all_inline_lists (block_preorder b))) cfg ->
  forall s r d, parse_markdown cfg s = Ok r d -> Forall merged (doc_inline_lists d).
Proof. exact texts_merged. Qed.
Print Assumptions C47_texts_merged_user.
Example C47_example : parse_markdown test_config (lit "A_B *\*x&amp;z*") =
  Ok [] (Document [BParagraph [IText (lit "A_B "); IEmphasis [IText (lit "*x&z")]]]).
Proof. vm_compute. reflexivity. Qed.

Theorem C48_merge_joins : forall l, joins_to l (merge_consecutive_text_elements l) /\ merged (merge_consecutive_text_elements l).
Proof. intro l. split; [exact (joins_merge l None)|apply merge_merged_go]. Qed.
Print Assumptions C48_merge_joins.
Theorem C48_merge_unique : forall l m, joins_to l m -> merged m -> m = merge_consecutive_text_elements l.
Proof. exact merge_unique. Qed.
Print Assumptions C48_merge_unique.
Theorem C48_merge_idempotent : forall l,
  merge_consecutive_text_elements (merge_consecutive_text_elements l) = merge_consecutive_text_elements l.
Proof. exact merge_idem. Qed.
Print Assumptions C48_merge_idempotent.
Example C48_example : merge_consecutive_text_elements
  [IText (lit "a"); IText []; IText (lit "b"); ILineBreak; IText (lit "c"); IText (lit "d")]
  = [IText (lit "ab"); ILineBreak; IText (lit "cd")].
Proof. reflexivity. Qed.

Theorem C49_lists : forall cfg s r d, no_user_code cfg -> parse_markdown cfg s = Ok r d ->
  forall k items, In (BList (MkList k items)) (doc_blocks d) ->
  items <> [] /\ forall n, k = Ordered n -> (n <= u64_max)%N.
Proof.
  intros cfg s r d H E k items Hin. pose proof (lists_ok cfg (no_user_block _ _ H) s r d E) as X.
  rewrite Forall_forall in X. destruct (X _ Hin) as [A B]. split; [exact A|]. intros n ->. exact B.
Qed.
Print Assumptions C49_lists.
Theorem C49_lists_user : forall cfg,
  block_user_code_keeps (fun b => Forall list_ok (block_preorder b)) cfg ->
  forall s r d, parse_markdown cfg s = Ok r d -> Forall list_ok (doc_blocks d).
Proof. exact lists_ok. Qed.
Print Assumptions C49_lists_user.
(** the number written is the start value, unless it does not fit 64 bits *)
Theorem C49_start : forall ds n d r, numeral 10 ds n -> In d (lit ".)") ->
  p_marker_ordered (ds ++ d :: r) = if (n <? 2 ^ 64)%N then Ok r (Ordered n) else Err.
Proof.
  intros ds n d r Hn Hs. apply NumFacts.numeral_dec in Hn as (Hne & Hd & ->). unfold p_marker_ordered, pmap, terminated, value, pmap, bind, ret, u64.
  assert (Hs' : d = ch "." \/ d = ch ")") by (cbn in Hs; destruct Hs as [<-|[<-|[]]]; auto). clear Hs.
  rewrite (span_app is_digit ds (d :: r) Hd) by (destruct Hs' as [-> | ->]; reflexivity).
  assert (L : (dec_value ds <? 2 ^ 64)%N = (dec_value ds <=? u64_max)%N) by (apply eq_true_iff_eq; rewrite N.ltb_lt, N.leb_le; unfold u64_max; cbn; lia).
  rewrite L. destruct ds as [|c ds]; [now elim Hne|]. destruct (_ <=? _)%N; [|reflexivity].
  destruct Hs' as [-> | ->]; reflexivity.
Qed.
Print Assumptions C49_start.
Example C49_example : parse_markdown test_config (lit "007. a
9) b") = Ok [] (Document [BList (MkList (Ordered 7) [ListItem None [BParagraph [IText (lit "a")]]; ListItem None [BParagraph [IText (lit "b")]]])]).
Proof. vm_compute. reflexivity. Qed.

(** ** C50, C51: switched-off kinds do not occur.  Kinds: everything but
    texts and paragraphs (see C52). *)
Theorem C50_no_switched_off_block : forall cfg s r d, no_user_code cfg -> parse_markdown cfg s = Ok r d ->
  forall b, In b (doc_blocks d) -> block_switch cfg b <> Some Ignore /\ block_switch cfg b <> Some Skip.
Proof.
  intros cfg s r d H E b Hin. pose proof (block_switches cfg (no_user_block _ _ H) s r d E) as X.
  rewrite Forall_forall in X. specialize (X _ Hin). destruct (block_switch cfg b) as [[]|]; cbn in X; split; congruence || tauto.
Qed.
Print Assumptions C50_no_switched_off_block.
Theorem C50_no_switched_off_inline : forall cfg s r d, no_user_code cfg -> parse_markdown cfg s = Ok r d ->
  forall i, In i (doc_inlines d) -> inline_switch cfg i <> Some Ignore /\ inline_switch cfg i <> Some Skip.
Proof.
  intros cfg s r d H E i Hin. pose proof (inline_switches cfg (no_user_inline _ _ H) (no_user_block _ _ H) s r d E) as X.
  rewrite Forall_forall in X. specialize (X _ Hin). destruct (inline_switch cfg i) as [[]|]; cbn in X; split; congruence || tauto.
Qed.
Print Assumptions C50_no_switched_off_inline.
(** the same with hooks and custom parsers, if these do not themselves
    produce switched-off kinds *)
Theorem C50_no_switched_off_user : forall cfg,
  block_user_code_keeps (fun b => Forall (fun b => switched_on (block_switch cfg b)) (block_preorder b)) cfg ->
  forall s r d, parse_markdown cfg s = Ok r d -> Forall (fun b => switched_on (block_switch cfg b)) (doc_blocks d).
Proof. exact block_switches. Qed.
Print Assumptions C50_no_switched_off_user.
(** inline HTML is not recognised by the parser at all *)
Theorem C62_no_inline_html : forall cfg s r d, no_user_code cfg -> parse_markdown cfg s = Ok r d ->
  forall h, ~ In (IHtml h) (doc_inlines d).
Proof.
  intros cfg s r d H. apply no_html_inline; [now apply no_user_inline|now apply no_user_block].
Qed.
Print Assumptions C62_no_inline_html.
Example C62_example : parse_markdown test_config (lit "a <b>c</b>") = Ok [] (Document [BParagraph [IText (lit "a <b>c</b>")]]).
Proof. vm_compute. reflexivity. Qed.
Definition cfg_hr (b : behavior block) : config :=
  Config false (fun _ => None) Parse Parse Parse Parse b Parse Parse Parse Parse Parse Parse Parse
    Parse Parse Parse Parse Parse Parse Parse Parse Parse Parse None None (fun _ => false) (fun c => [c]).
Example C50_example : no_user_code (cfg_hr Ignore) /\
  parse_markdown (cfg_hr Ignore) (lit "a

***

b") = Ok [] (Document [BParagraph [IText (lit "a")]; BParagraph [IText (lit "***")]; BParagraph [IText (lit "b")]]).
Proof. split; [now repeat constructor|]. vm_compute. reflexivity. Qed.

(** C51: with [Skip] the document is the one parsed with [Parse], with [Empty]
    in place of the elements skipped; more generally hooks act as a bottom-up
    map on the document parsed without them (C61). *)
Theorem C61_hooks_map_the_tree : forall cfg, tree_hooks merge_consecutive_text_elements cfg -> forall s d,
  parse_markdown (unhook_config cfg) s = Ok [] d ->
  parse_markdown cfg s = Ok [] (act_document merge_consecutive_text_elements cfg d).
Proof. intros cfg H s d E. rewrite (parse_hooks cfg H s), E. reflexivity. Qed.
Print Assumptions C61_hooks_map_the_tree.
Theorem C61_hooks_same_success : forall cfg, tree_hooks merge_consecutive_text_elements cfg -> forall s,
  parse_markdown (unhook_config cfg) s = Err <-> parse_markdown cfg s = Err.
Proof.
  intros cfg H s. rewrite (parse_hooks cfg H s). destruct (parse_markdown _ s); cbn; split; congruence.
Qed.
Print Assumptions C61_hooks_same_success.
Theorem C51_skip_leaves_empty : forall b s d, (b = Skip \/ b = Parse) ->
  parse_markdown (cfg_hr Parse) s = Ok [] d ->
  parse_markdown (cfg_hr b) s = Ok [] (act_document merge_consecutive_text_elements (cfg_hr b) d).
Proof.
  intros b s d Hb E. apply C61_hooks_map_the_tree.
  - repeat split; try discriminate; try reflexivity.
  - destruct Hb as [-> | ->]; exact E.
Qed.
Print Assumptions C51_skip_leaves_empty.
Example C51_example : parse_markdown (cfg_hr Skip) (lit "a

***

> b
> ***") = Ok [] (Document [BParagraph [IText (lit "a")]; BEmpty; BBlockQuote [BParagraph [IText (lit "b")]; BEmpty]]).
Proof. vm_compute. reflexivity. Qed.
(** a configuration with an emphasis hook, an image hook and a skipped quote meets the hypothesis *)
Definition cfg_hooks : config :=
  Config false (fun _ => None) Skip Parse (FlatMap (fun b => [b; BThematicBreak])) Parse Parse Parse Parse Parse Parse Parse Parse Parse
    Parse Parse Parse Parse Parse (MapB (fun i => match i with IImage im => IText (image_alt im) | _ => i end)) (FlatMap (fun i => [IText (lit "<"); i])) Skip Parse Parse None None (fun _ => false) (fun c => [c]).
Example C61_example : tree_hooks merge_consecutive_text_elements cfg_hooks /\
  parse_markdown cfg_hooks (lit "# a ![b](c) `d`
> q") = Ok [] (Document [BHeading (Heading (Atx 1) [IText (lit "a b <"); ICode (lit "d")]); BThematicBreak; BEmpty]).
Proof. split; [repeat split; discriminate || reflexivity|]. vm_compute. reflexivity. Qed.

(** ** C52, refuted: ignoring paragraphs does not remove them, ignoring texts
    does not remove all texts, and skipping setext headings empties ordinary
    paragraphs. *)
Theorem C52_paragraph_switch_refuted : exists cfg d, custom_ok cfg /\ b_paragraph cfg = Ignore /\
  parse_markdown cfg (lit "abc") = Ok [] d /\ In (BParagraph [IText (lit "abc")]) (doc_blocks d).
Proof.
  exists (Config false (fun _ => None) Parse Parse Parse Parse Parse Parse Parse Parse Parse Parse Parse Ignore
    Parse Parse Parse Parse Parse Parse Parse Parse Parse Parse None None (fun _ => false) (fun c => [c])). eexists.
  split; [split; discriminate|]. split; [reflexivity|]. split; [vm_compute; reflexivity|]. now left.
Qed.
Print Assumptions C52_paragraph_switch_refuted.
Theorem C52_setext_switch_refuted : exists cfg, custom_ok cfg /\ b_paragraph cfg = Parse /\ b_heading_v2 cfg = Skip /\
  parse_markdown cfg (lit "abc") = Ok [] (Document [BEmpty]).
Proof.
  exists (Config false (fun _ => None) Parse Parse Parse Skip Parse Parse Parse Parse Parse Parse Parse Parse
    Parse Parse Parse Parse Parse Parse Parse Parse Parse Parse None None (fun _ => false) (fun c => [c])).
  split; [split; discriminate|]. split; [reflexivity|]. split; [reflexivity|]. vm_compute. reflexivity.
Qed.
Print Assumptions C52_setext_switch_refuted.
Theorem C52_text_switch_refuted : exists cfg d, custom_ok cfg /\ i_text cfg = Ignore /\
  parse_markdown cfg (lit "FOO_BAR") = Ok [] d /\ In (IText (lit "FOO_BAR")) (doc_inlines d).
Proof.
  exists (Config false (fun _ => None) Parse Parse Parse Parse Parse Parse Parse Parse Parse Parse Parse Parse
    Parse Parse Parse Parse Parse Parse Parse Parse Parse Ignore None None (fun _ => false) (fun c => [c])). eexists.
  split; [split; discriminate|]. split; [reflexivity|]. split; [vm_compute; reflexivity|]. now left.
Qed.
Print Assumptions C52_text_switch_refuted.
(** What does govern paragraphs (no user code besides hooks): the setext
    switch, or the paragraph switch if setext headings are ignored. *)
Theorem C52_paragraphs : forall cfg s d, tree_hooks merge_consecutive_text_elements cfg ->
  parse_markdown (unhook_config cfg) s = Ok [] d ->
  parse_markdown cfg s = Ok [] (act_document merge_consecutive_text_elements cfg d) /\
  forall c, act_block merge_consecutive_text_elements cfg (BParagraph c) =
    act BEmpty (match b_heading_v2 cfg with Ignore => b_paragraph cfg | b => b end)
      (BParagraph (act_inlines merge_consecutive_text_elements cfg c)).
Proof. intros cfg s d H E. split; [now apply C61_hooks_map_the_tree|reflexivity]. Qed.
Print Assumptions C52_paragraphs.
Example C52_example : let cfg := Config false (fun _ => None) Parse Parse Parse Ignore Parse Parse Parse Parse Parse Parse Parse (MapB (fun _ => BThematicBreak))
    Parse Parse Parse Parse Parse Parse Parse Parse Parse Parse None None (fun _ => false) (fun c => [c]) in
  tree_hooks merge_consecutive_text_elements cfg /\ parse_markdown cfg (lit "abc") = Ok [] (Document [BThematicBreak]).
Proof. split; [repeat split; try discriminate; intros; first [reflexivity|exfalso; match goal with H : _ <> Ignore |- _ => now apply H end]|]. vm_compute. reflexivity. Qed.


(** ** C53: identity hooks *)
Theorem C53_identity_hooks : forall c c', same_config c c' -> forall s, parse_markdown c' s = parse_markdown c s.
Proof. intros c c' H s. symmetry. now apply same_parse. Qed.
Print Assumptions C53_identity_hooks.
Example C53_example : same_config (cfg_hr Parse) (cfg_hr (FlatMap (fun x => [x]))).
Proof.
  unfold same_config. repeat split; try (now left). right. split; [reflexivity|]. right. exists (fun x => [x]). now split.
Qed.

(** ** C54: alert markers.  Exactly the upper-cased, trimmed "[!NAME]". *)
Theorem C54_marker_exact : forall cfg m ty, parse_alert_marker cfg m = Some ty <->
  exists name, to_uppercase cfg (trim m) = lit "[!" ++ name ++ lit "]" /\ alert_of_name name ty.
Proof. exact alert_marker_exact. Qed.
Print Assumptions C54_marker_exact.
(** the five standard names are recognised in any (ASCII) case and with blanks around *)
Theorem C54_standard_any_case : forall cfg name ty w a b,
  In (name, ty) standard_alerts -> map to_upper_ascii w = name ->
  Forall (fun c => is_whitespace c = true) a -> Forall (fun c => is_whitespace c = true) b ->
  parse_alert_marker cfg (a ++ lit "[!" ++ w ++ lit "]" ++ b) = Some ty.
Proof. exact alert_standard. Qed.
Print Assumptions C54_standard_any_case.
(** a custom identifier gives a custom alert, unless it begins with a standard name *)
Theorem C54_custom_name : forall cfg w, identifier w ->
  (forall std t rest, In (std, t) standard_alerts -> map to_upper_ascii w <> std ++ rest) ->
  parse_alert_marker cfg (lit "[!" ++ w ++ lit "]") = Some (Custom (map to_upper_ascii w)).
Proof. exact alert_custom. Qed.
Print Assumptions C54_custom_name.
Theorem C54_custom_refuted : exists w, identifier w /\ (forall t, ~ In (map to_upper_ascii w, t) standard_alerts) /\
  forall cfg, parse_alert_marker cfg (lit "[!" ++ w ++ lit "]") = None.
Proof.
  exists (lit "NOTES"). split; [|split].
  - exists (ch "N"), (lit "OTES"). split; [reflexivity|]. split; [reflexivity|]. repeat constructor.
  - intros t H. cbn in H. repeat (destruct H as [H|H]; [discriminate|]). exact H.
  - intros cfg. reflexivity.
Qed.
Print Assumptions C54_custom_refuted.
Example C54_example : parse_markdown test_config (lit "> [!tip]
> x

> [!my_kind]
> y") = Ok [] (Document [BGitHubAlert (GitHubAlert Tip [BParagraph [IText (lit "x")]]);
                         BGitHubAlert (GitHubAlert (Custom (lit "MY_KIND")) [BParagraph [IText (lit "y")]])]).
Proof. vm_compute. reflexivity. Qed.

(** ** C63, refuted: a [Map]/[FlatMap] hook for GitHub alerts is never run. *)
Theorem C63_alert_hook_refuted : exists cfg f d, b_github_alert cfg = MapB f /\ (forall b, f b = BThematicBreak) /\
  parse_markdown cfg (lit "> [!NOTE]
> x") = Ok [] d /\ d = Document [BGitHubAlert (GitHubAlert Note [BParagraph [IText (lit "x")]])].
Proof.
  exists (Config false (fun _ => None) Parse (MapB (fun _ => BThematicBreak)) Parse Parse Parse Parse Parse Parse Parse Parse Parse Parse
    Parse Parse Parse Parse Parse Parse Parse Parse Parse Parse None None (fun _ => false) (fun c => [c])).
  exists (fun _ => BThematicBreak). eexists. split; [reflexivity|]. split; [reflexivity|]. split; [vm_compute; reflexivity|reflexivity].
Qed.
Print Assumptions C63_alert_hook_refuted.
(** what holds: [Skip] and [Ignore] do work (C50, C51), and an alert hook changes nothing at all *)
Theorem C63_alert_hook_is_parse : forall cfg b, (exists f, b = MapB f) \/ (exists g, b = FlatMap g) ->
  forall s, parse_markdown (same_except_alert cfg b) s = parse_markdown (same_except_alert cfg Parse) s.
Proof. exact alert_hook_ignored. Qed.
Print Assumptions C63_alert_hook_is_parse.

(** ** C56: code spans.  A text starts with a code span exactly if it has the
    form [code_span_source]; the content is [code_content]. *)
Theorem C56_code_span_exact : forall s r content, p_code_span s = Ok r content <->
  exists n raw, code_span_source n raw r s /\ code_content raw content.
Proof. exact code_span_exact. Qed.
Print Assumptions C56_code_span_exact.
(** and the inline parser yields exactly this node, then goes on after it *)
Theorem C56_code_span_inline : forall cfg n raw r s content,
  custom_ok cfg -> i_code_span cfg = Parse -> i_text cfg <> Ignore ->
  code_span_source n raw r s -> code_content raw content ->
  exists l, inline_many1 cfg s = Ok [] (ICode content :: l) /\ (r = [] -> l = []) /\
            (r <> [] -> inline_many1 cfg r = Ok [] l).
Proof. exact code_span_first. Qed.
Print Assumptions C56_code_span_inline.
Example C56_example : code_span_source 2 (lit " a ` b ") (lit " c") (lit "`` a ` b `` c") /\
  code_content (lit " a ` b ") (lit "a ` b") /\
  inline_many1 test_config (lit "`` a ` b `` c") = Ok [] [ICode (lit "a ` b"); IText (lit " c")].
Proof.
  assert (E : p_code_span (lit "`` a ` b `` c") = Ok (lit " c") (lit "a ` b")) by reflexivity.
  apply C56_code_span_exact in E as (n & raw & Hs & Hc).
  assert (n = 2 /\ raw = lit " a ` b ") as [-> ->].
  { destruct Hs as (E & Hn & Hne & Hr & _). cbn in E. destruct n as [|[|[|n]]]; [lia| | |].
    - cbn in E. injection E as E. destruct raw as [|c raw]; [now elim Hne|]. injection E as <- _. now elim (Hr raw).
    - cbn in E. injection E as E. split; [reflexivity|]. apply (app_inv_tail (ticks 2 ++ lit " c")). symmetry. exact E.
    - discriminate. }
  split; [exact Hs|]. split; [exact Hc|]. vm_compute. reflexivity.
Qed.

(** ** C57: numeric character references *)
Theorem C57_decimal : forall ds v t, numeral 10 ds v ->
  (scalar v -> p_entity_numeric (lit "&#" ++ ds ++ lit ";" ++ t) = Ok t [v]) /\
  (~ scalar v -> p_entity_numeric (lit "&#" ++ ds ++ lit ";" ++ t) = Err).
Proof.
  intros ds v t H. apply numeral_dec in H as (N & D & ->). rewrite (entity_decimal ds t N D), <- scalar_iff. unfold numeric_result.
  destruct (is_scalar _); split; intro X'; try reflexivity; first [discriminate | now elim X' | idtac].
Qed.
Print Assumptions C57_decimal.
Theorem C57_hexadecimal : forall x ds v t, In x (lit "xX") -> numeral 16 ds v ->
  (scalar v -> p_entity_numeric (lit "&#" ++ x :: ds ++ lit ";" ++ t) = Ok t [v]) /\
  (~ scalar v -> p_entity_numeric (lit "&#" ++ x :: ds ++ lit ";" ++ t) = Err).
Proof.
  intros x ds v t X H. apply numeral_hex in H as (N & D & ->). rewrite (entity_hex x ds t), <- scalar_iff; [|cbn in X; intuition|assumption..]. unfold numeric_result.
  destruct (is_scalar _); split; intro X'; try reflexivity; first [discriminate | now elim X' | idtac].
Qed.
Print Assumptions C57_hexadecimal.
Theorem C57_nothing_else : forall s r a, p_entity_numeric s = Ok r a ->
  exists v ds, a = [v] /\ scalar v /\ s = lit "&#" ++ ds ++ lit ";" ++ r /\ reference_digits ds v.
Proof.
  intros s r a H. apply entity_only in H as (v & -> & S & [(ds & -> & N & D & ->)|(x & ds & -> & X & N & D & ->)]); apply scalar_iff in S.
  - exists (dec_value ds), ds. repeat (split; [easy|]). left. now apply numeral_dec.
  - exists (hex_value ds), (x :: ds). repeat (split; [easy|]). right. exists x, ds. split; [reflexivity|]. split; [cbn; intuition|]. now apply numeral_hex.
Qed.
Print Assumptions C57_nothing_else.
Lemma digits_reference : forall ds v, reference_digits ds v -> reference ds v.
Proof.
  intros ds v [H|(x & hs & -> & X & H)]; [left; now apply numeral_dec|]. right. apply numeral_hex in H as H'. exists x, hs. split; [reflexivity|].
  split; [cbn in X; intuition|exact H'].
Qed.
(** within plain text: decoded if a scalar value, left as written otherwise *)
Theorem C57_decoded_in_text : forall cfg, i_text cfg = Parse -> custom_inline cfg = None -> custom_ok cfg ->
  forall a ds v b, plain_text a -> plain_text b -> reference_digits ds v -> scalar v ->
  inline_many1 cfg (a ++ lit "&#" ++ ds ++ lit ";" ++ b) = Ok [] [IText (a ++ v :: b)].
Proof. intros cfg H1 H2 H3 a ds v b Ha Hb R S. apply reference_decodes; auto; [now apply digits_reference|now apply scalar_iff]. Qed.
Print Assumptions C57_decoded_in_text.
Theorem C57_kept_in_text : forall cfg, i_text cfg = Parse -> custom_inline cfg = None -> custom_ok cfg ->
  forall a ds v b, plain_text a -> plain_text b -> reference_digits ds v -> ~ scalar v ->
  inline_many1 cfg (a ++ lit "&#" ++ ds ++ lit ";" ++ b) = Ok [] [IText (a ++ lit "&#" ++ ds ++ lit ";" ++ b)].
Proof.
  intros cfg H1 H2 H3 a ds v b Ha Hb R S. apply reference_kept with (v := v); auto; [now apply digits_reference|].
  apply Bool.not_true_is_false. now rewrite scalar_iff.
Qed.
Print Assumptions C57_kept_in_text.
Example C57_example : reference_digits (lit "x3bB") 955 /\ scalar 955 /\ reference_digits (lit "1114112") 1114112 /\ ~ scalar 1114112 /\
  inline_many1 test_config (lit "a&#x3bB;b&#1114112;&#xD800;") = Ok [] [IText (lit "a" ++ 955%N :: lit "b&#1114112;&#xD800;")].
Proof.
  split; [|split; [|split; [|split]]].
  - right. exists (ch "x"), (lit "3bB"). split; [reflexivity|]. split; [now left|]. apply (num_more 16 (lit "3b") 59 (ch "B") 11); [|now split; [|right]].
    apply (num_more 16 (lit "3") 3 (ch "b") 11); [|now split; [|left]]. apply num_one. now split; [|left].
  - left. reflexivity.
  - left. apply numeral_dec. split; [discriminate|]. split; [repeat constructor|reflexivity].
  - unfold scalar. lia.
  - reflexivity.
Qed.

(** ** C58: link labels.  [rec] is the inline parser for the label's text. *)
Theorem C58_label_exact : forall (rec : parser (list inline)) s r x, p_link_label rec s = Ok r x <->
  exists raw l r', s = ch "[" :: raw ++ ch "]" :: r /\ label_text raw l /\ label_fits l /\ rec l = Ok r' x.
Proof. exact link_label_exact. Qed.
Print Assumptions C58_label_exact.
Example C58_example : label_text (lit "a\]b") (lit "a]b") /\ label_fits (lit "a]b") /\
  p_link_label (inline_many1 test_config) (lit "[a\]b](u)") = Ok (lit "(u)") [IText (lit "a]b")] /\
  p_link_label (inline_many1 test_config) (lit "[  ](u)") = Err.
Proof.
  repeat split.
  - apply label_char; [discriminate|intro; discriminate|]. apply label_esc. apply label_char; [discriminate|intro; discriminate|]. constructor.
  - cbn. lia.
  - apply Exists_cons_hd. split; discriminate.
Qed.

(** ** C64: backslash escapes.  An escape at the start of a text works ... *)
Theorem C64_escape_at_start_partial : forall cfg, i_text cfg = Parse -> custom_inline cfg = None -> custom_ok cfg ->
  forall c b, In c (lit "!""#$%&'()*+,-./:;<=>?@[\]^_`{|}~") -> plain_text b ->
  inline_many1 cfg (ch "\" :: c :: b) = Ok [] [IText (c :: b)].
Proof. exact escape_start. Qed.
Print Assumptions C64_escape_at_start_partial.
(** ... but not after other text: the backslash stays, and the escaped
    character keeps its special meaning. *)
Theorem C64_escape_in_text_refuted : forall entities upper,
  let cfg := default_config entities (fun _ => false) upper in
  inline_many1 cfg (lit "a\*b") = Ok [] [IText (lit "a\*b")] /\
  inline_many1 cfg (lit "a \*b*") = Ok [] [IText (lit "a \"); IEmphasis [IText (lit "b")]].
Proof. intros. split; vm_compute; reflexivity. Qed.
Print Assumptions C64_escape_in_text_refuted.
Example C64_example : inline_many1 test_config (lit "\*not emphasis") = Ok [] [IText (lit "*not emphasis")].
Proof. vm_compute. reflexivity. Qed.

(** ** C65, refuted: in a quote written with the usual space, a heading is not
    a heading (the space after ">" is kept and a heading must not be indented). *)
Theorem C65_heading_in_quote_refuted : forall entities punct upper,
  let cfg := default_config entities punct upper in
  parse_markdown cfg (lit "# x") = Ok [] (Document [BHeading (Heading (Atx 1) [IText (lit "x")])]) /\
  parse_markdown cfg (lit "># x") = Ok [] (Document [BBlockQuote [BHeading (Heading (Atx 1) [IText (lit "x")])]]) /\
  parse_markdown cfg (lit "> # x") = Ok [] (Document [BBlockQuote [BParagraph [IText (lit "# x")]]]).
Proof. intros. repeat split; vm_compute; reflexivity. Qed.
Print Assumptions C65_heading_in_quote_refuted.
