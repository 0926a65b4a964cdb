(** Property C100: switches of constructs a source does not use do not matter.
    Specification: SpecSwitch.v. *)
From Coq Require Import String List NArith.
From Verif Require Import SpecParser ParserBlock ParserInlineFacts ParserConfig ConfigBuild ConformanceParser SwitchFacts SpecSwitch.
Import ListNotations.
Open Scope list_scope.

(** Two configurations that agree on the constructs whose characters occur in
    the source read it alike, whatever they do with the others (ignore, skip,
    call hooks). *)
Theorem C100_unused_constructs : forall c c' s, custom_ok c -> i_text c <> Ignore -> b_paragraph c <> Ignore ->
  agree_on s c c' -> parse_markdown c' s = parse_markdown c s.
Proof. intros c c' s. exact (switches s c c'). Qed.
Print Assumptions C100_unused_constructs.

(** Builder by builder. *)
Theorem C100_builders : forall c s, custom_ok c -> i_text c <> Ignore -> b_paragraph c <> Ignore ->
  let same c' := parse_markdown c' s = parse_markdown c s in
  let no x := lacks s (lit x) in
  (no "#"%string -> same (with_allow_no_space_in_headings c)) /\
  (no "&"%string \/ no ";"%string -> forall m, same (with_html_entities_map c m)) /\
  (no ">"%string -> forall b, same (with_block_blockquote_behavior c b) /\ same (with_block_github_alert_behavior c b)) /\
  (no "#"%string -> forall b, same (with_block_heading_v1_behavior c b)) /\
  (no "-_*"%string -> forall b, same (with_block_thematic_break_behavior c b)) /\
  (no "*+-0123456789"%string \/ no "*+-.)"%string -> forall b, same (with_block_list_behavior c b)) /\
  (no_code_block s -> forall b, same (with_block_code_block_behavior c b)) /\
  (no "<"%string -> forall b, same (with_block_html_block_behavior c b)) /\
  (no "["%string \/ no "^"%string \/ no "]"%string \/ no ":"%string -> forall b, same (with_block_footnote_definition_behavior c b)) /\
  (no "["%string \/ no "]"%string \/ no ":"%string -> forall b, same (with_block_link_definition_behavior c b)) /\
  (no "|"%string \/ no "-"%string -> forall b, same (with_block_table_behavior c b)) /\
  (no "<"%string \/ no ">"%string \/ no ":@"%string -> forall b, same (with_inline_autolink_behavior c b)) /\
  (no "["%string \/ no "]"%string \/ no "("%string \/ no ")"%string -> forall b, same (with_inline_link_behavior c b)) /\
  (no "["%string \/ no "^"%string \/ no "]"%string -> forall b, same (with_inline_footnote_reference_behavior c b)) /\
  (no "["%string \/ no "]"%string -> forall b, same (with_inline_reference_link_behavior c b)) /\
  (no "!"%string \/ no "["%string \/ no "]"%string \/ no "("%string \/ no ")"%string -> forall b, same (with_inline_image_behavior c b)) /\
  (no "`"%string -> forall b, same (with_inline_code_span_behavior c b)) /\
  (no "*_"%string -> forall b, same (with_inline_emphasis_behavior c b)) /\
  (no "~"%string -> forall b, same (with_inline_strikethrough_behavior c b)).
Proof.
  intros c s Hc Ht Hp same no. unfold same, no. clear same no. destruct c.
  repeat match goal with |- _ /\ _ => apply conj end; intros H; try intro b;
    repeat match goal with |- _ /\ _ => apply conj end; (apply C100_unused_constructs; [exact Hc|exact Ht|exact Hp|]);
    constructor; first [reflexivity|left; reflexivity|right; exact H|idtac];
    repeat match type of H with _ \/ _ => destruct H as [H|H] end; right; eexists; (split; [|exact H]);
    repeat first [left; reflexivity|right].
Qed.
Print Assumptions C100_builders.

(** Prose without markup characters reads the same with every configuration of
    the built-in constructs. *)
Theorem C100_plain_source : forall c c' s, custom_ok c -> i_text c <> Ignore -> b_paragraph c <> Ignore ->
  i_text c' = i_text c -> b_paragraph c' = b_paragraph c -> b_heading_v2 c' = b_heading_v2 c -> i_hard_newline c' = i_hard_newline c ->
  custom_block c' = custom_block c -> custom_inline c' = custom_inline c -> punct_table c' = punct_table c -> upper_table c' = upper_table c ->
  lacks s (lit "`~#>*_+-.)<[|&" ++ [c_tab]) -> (forall a b, s <> a ++ lit "    " ++ b) ->
  parse_markdown c' s = parse_markdown c s.
Proof.
  intros c c' s Hc Ht Hp E1 E2 E3 E4 E5 E6 E7 E8 N F. apply C100_unused_constructs; auto.
  assert (K : forall cs, incl cs (lit "`~#>*_+-.)<[|&" ++ [c_tab]) -> lacks s cs) by (intros cs I x J; apply N; now apply I).
  Local Ltac inside := intros x J; vm_compute in J |- *; intuition.
  constructor; auto; try (right; eexists; split; [left; reflexivity|apply K; solve [inside]]); try (right; eexists; split; [right; left; reflexivity|apply K; solve [inside]]).
  - right. left. apply K. inside.
  - right. apply K. inside.
  - right. split; [|exact F]. apply K. inside.
Qed.
Print Assumptions C100_plain_source.

(** *** concrete cases *)
(** emphasis, a link and a list, read alike without tables, HTML, code, quotes ... *)
Definition switch_sample : str :=
  lit "some *text* with [a link](/u)" ++ [c_nl; c_nl] ++ lit "- an item" ++ [c_nl] ++ lit "- another".
Definition few_constructs : config :=
  with_block_table_behavior (with_block_html_block_behavior (with_inline_code_span_behavior
    (with_block_blockquote_behavior (with_block_code_block_behavior test_config Ignore) Skip) Ignore) Ignore)
    (MapB (fun _ => BThematicBreak)).
Example C100_nonvacuous : agree_on switch_sample test_config few_constructs /\ few_constructs <> test_config /\
  exists d, parse_markdown few_constructs switch_sample = Ok [] d /\ d <> Document [].
Proof.
  split; [|split].
  - Local Ltac lacking := intros x J K; vm_compute in J, K; intuition (subst; discriminate).
    constructor; first [reflexivity|left; reflexivity|right]; try (eexists; split; [left; reflexivity|lacking]).
    split; [lacking|]. intros a b E. vm_compute in E.
    repeat (destruct a as [|? a]; [discriminate E|injection E as _ E]). destruct a; discriminate E.
  - intro E. apply (f_equal b_table) in E. discriminate E.
  - eexists. split; [vm_compute; reflexivity|discriminate].
Qed.
(** the characters matter: *)
Example C100_used : parse_markdown (with_block_table_behavior test_config Ignore) (lit "| a |" ++ [c_nl] ++ lit "|--|") <>
  parse_markdown test_config (lit "| a |" ++ [c_nl] ++ lit "|--|").
Proof. vm_compute. discriminate. Qed.
