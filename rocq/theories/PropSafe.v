(** C93: untrusted Markdown renders to harmless HTML.  Specification: SpecSafe.v
    (the allowed elements and attributes), SpecHtml.v (the strict lexer). *)
From Coq Require Import String List.
From Verif Require Import Chars SpecParser Nom ParserConfig ParserBlock PropParser SafeParse HtmlFacts HtmlProps SpecSafe SafeFacts.
Import ListNotations.
Open Scope list_scope.

(** For every source, if HTML blocks are ignored or skipped and there is no user
    code, what is rendered is well-formed and holds only harmless elements with
    harmless attributes, at any width. *)
Theorem C93_harmless : forall cfg s d, no_user_code cfg -> i_text cfg <> Ignore -> b_paragraph cfg <> Ignore ->
  b_html_block cfg = Ignore \/ b_html_block cfg = Skip -> parse_markdown cfg s = Ok [] d ->
  forall uw config, exists out ts, render_html uw d config = Some out /\ tokens out = Some ts /\ balanced ts /\
    Forall harmless_token ts.
Proof.
  intros cfg s d Hu Ht Hp Hh E uw config.
  assert (NI := C62_no_inline_html cfg s [] d Hu E).
  assert (NB : forall x, ~ In (BHtmlBlock x) (doc_blocks d)).
  { intros x I. apply (C50_no_switched_off_block cfg s [] d Hu E) in I as [I1 I2]. cbn in I1, I2. destruct Hh as [H|H]; rewrite H in *; congruence. }
  assert (NL : forall x bs, In (BGitHubAlert (GitHubAlert (Custom x) bs)) (doc_blocks d) -> plain_label x = true).
  { intros x bs I. pose proof (proj1 (Forall_forall _ _) (parse_named cfg Hu s d Ht Hp E) _ I _ _ eq_refl) as (c & t & -> & A & T).
    assert (X : forall y, is_alnum y = true \/ y = ch "_" -> negb (N.eqb y 60 || N.eqb y 62 || N.eqb y 38) = true).
    { intros y [Y| ->]; [|reflexivity]. destruct (N.eqb_spec y 60) as [->|]; [discriminate|]. destruct (N.eqb_spec y 62) as [->|]; [discriminate|]. destruct (N.eqb_spec y 38) as [->|]; [discriminate|]. reflexivity. }
    unfold plain_label. cbn [forallb]. apply andb_true_intro. split; [apply X; left; unfold is_alnum; now rewrite A|]. apply forallb_forall. intros y Y. apply X. exact (proj1 (Forall_forall _ _) T _ Y). }
  assert (TO : tables_ok d). { intros t I. now destruct (C46_tables_rectangular cfg s [] d Hu E t I). }
  destruct (render_html_view uw d config (no_raw_html_ok d (conj NI (conj NB NL))) TO) as (out & R & T & B).
  exists out. eexists. split; [exact R|]. split; [exact T|]. split; [exact B|].
  unfold view. apply ok_flat. apply Forall_forall. intros b Hb. apply block_ok. apply Forall_forall. intros x Hx.
  assert (Ix : In x (doc_blocks d)) by (apply in_flat_map; now exists b). repeat split.
  - intros y ->. exact (NB _ Ix).
  - intros y bs ->. exact (NL _ _ Ix).
  - apply Forall_forall. intros i Hi y ->. apply (NI y). unfold doc_inlines. apply in_flat_map in Hi as (j & J1 & J2). apply in_flat_map. exists x. split; [exact Ix|]. apply in_flat_map. now exists j.
Qed.
Print Assumptions C93_harmless.
(** Every source has such a rendering; the hypotheses hold of the default
    configuration with HTML blocks off. *)
Definition cfg_html (b : behavior block) : config :=
  Config false (fun _ => None) Parse Parse Parse Parse Parse Parse Parse b Parse Parse Parse Parse
    Parse Parse Parse Parse Parse Parse Parse Parse Parse Parse None None (fun _ => false) (fun c => [c]).
Definition attack : str := lit "<script>
alert(1)</script>

> [!Note]
> <img src=x onerror=alert(1)> [a](""onclick=)".
Example C93_nonvacuous : no_user_code (cfg_html Ignore) /\ exists d,
  parse_markdown (cfg_html Ignore) attack = Ok [] d /\
  List.length (doc_blocks d) = 3.
Proof. split; [now repeat constructor|]. eexists. split; [vm_compute; reflexivity|reflexivity]. Qed.
(** With HTML blocks on they are taken over verbatim, *)
Example C93_html_on : exists d out ts, parse_markdown (cfg_html Parse) (lit "<script>a</script>") = Ok [] d /\
  render_html (@List.length _) d (HtmlConfig 80 []) = Some out /\ tokens out = Some ts /\ In (TOpen (lit "script") []) ts.
Proof. do 3 eexists. split; [vm_compute; reflexivity|]. split; [vm_compute; reflexivity|]. split; [vm_compute; reflexivity|]. vm_compute. now left. Qed.
(** and destinations are not filtered in any case. *)
Example C93_script_url : exists d out ts, parse_markdown (cfg_html Ignore) (lit "[a](javascript:b)") = Ok [] d /\
  render_html (@List.length _) d (HtmlConfig 80 []) = Some out /\ tokens out = Some ts /\ In (TOpen (lit "a") [(lit "href", lit "javascript:b")]) ts.
Proof. do 3 eexists. split; [vm_compute; reflexivity|]. split; [vm_compute; reflexivity|]. split; [vm_compute; reflexivity|]. vm_compute. right. now left. Qed.
