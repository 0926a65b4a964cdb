(** C97: footnote references in HTML lead nowhere.  Specification: SpecHtml.v (the
    strict lexer [tokens], [no_raw_html], [tables_ok]). *)
From Coq Require Import String List.
From Verif Require Import Chars SpecParser Nom ParserConfig ParserBlock PropParser SafeParse HtmlFacts HtmlProps SpecSafe SafeFacts PropSafe.
Import ListNotations.
Open Scope list_scope.

(** an element with the given anchor: an [id], or a [name] *)
Definition target_of (anchor : str) (t : tok) : Prop :=
  exists n a, t = TOpen n a /\ (In (lit "id", anchor) a \/ In (lit "name", anchor) a).

Lemma lit_inj : forall a b, lit a = lit b -> a = b.
Proof.
  induction a as [|x a IH]; intros [|y b] E; try discriminate E; [reflexivity|]. cbn [lit] in E. injection E as E1 E2.
  f_equal; [|now apply IH]. rewrite <- (Ascii.ascii_N_embedding x), <- (Ascii.ascii_N_embedding y). now f_equal.
Qed.
(** No document (without raw HTML, which is copied) has an element that a link to
    a place in the page could lead to. *)
Theorem C97_no_anchors : forall uw config d, no_raw_html d -> tables_ok d ->
  exists out ts, render_html uw d config = Some out /\ tokens out = Some ts /\ forall anchor t, In t ts -> ~ target_of anchor t.
Proof.
  intros uw config d (NI & NB & NL) TO.
  destruct (render_html_view uw d config (no_raw_html_ok d (conj NI (conj NB NL))) TO) as (out & R & T & B).
  match type of T with _ = Some ?ts => exists out, ts; assert (OK : Forall harmless_token ts) end.
  { unfold view. apply ok_flat. apply Forall_forall. intros b Hb. apply block_ok. apply Forall_forall. intros x Hx.
    assert (Ix : In x (doc_blocks d)) by (apply in_flat_map; now exists b). repeat split.
    - intros y ->. exact (NB _ Ix).
    - intros y bs ->. exact (NL _ _ Ix).
    - apply Forall_forall. intros i Hi y ->. apply (NI y). unfold doc_inlines. apply in_flat_map in Hi as (j & J1 & J2). apply in_flat_map. exists x. split; [exact Ix|]. apply in_flat_map. now exists j. }
  split; [exact R|]. split; [exact T|]. intros anchor t It (n & a & -> & Ia).
  apply (proj1 (Forall_forall _ _) OK) in It. destruct It as (name & keys & J & -> & K).
  assert (X : exists key, (key = "id" \/ key = "name")%string /\ In key keys).
  { destruct Ia as [Ia|Ia]; apply (proj1 (Forall_forall _ _) K) in Ia; destruct Ia as (key & I1 & I2); exists key; (split; [|exact I1]); cbn [fst] in I2; [left|right];
      (apply lit_inj; now symmetry). }
  clear -J X. cbn in J. destruct X as (key & E & Ik).
  repeat (destruct J as [J|J]; [injection J as <- <-; cbn in Ik; intuition (subst; discriminate)|]); destruct J.
Qed.
Print Assumptions C97_no_anchors.
(** ... although every numbered footnote reference is a link to such a place. *)
Definition linked_note : document :=
  Document [BParagraph [IText (lit "x"); IFootnoteReference (lit "a")]; BFootnoteDefinition (FootnoteDefinition (lit "a") [BParagraph [IText (lit "y")]])].
Theorem C97_footnote_target_refuted : exists (d : document) (out : str) (ts : list tok) (n : str) (a : list (str * str)) (p : str), no_raw_html d /\ tables_ok d /\
  render_html (@List.length _) d (HtmlConfig 80 (lit "fn")) = Some out /\ tokens out = Some ts /\
  In (TOpen n a) ts /\ In (lit "href", ch "#" :: p) a /\ forall t, In t ts -> ~ target_of p t.
Proof.
  exists linked_note. assert (NR : no_raw_html linked_note) by (repeat split; cbn; intuition discriminate).
  assert (TO : tables_ok linked_note) by (intros t; cbn; intuition discriminate).
  destruct (C97_no_anchors (@List.length _) (HtmlConfig 80 (lit "fn")) linked_note NR TO) as (out & ts & R & T & X). exists out, ts, (lit "a").
  eexists _, (lit "fn1"). split; [exact NR|]. split; [exact TO|]. split; [exact R|]. split; [exact T|].
  assert (Y : out = match render_html (@List.length _) linked_note (HtmlConfig 80 (lit "fn")) with Some o => o | None => [] end) by now rewrite R.
  vm_compute in Y. subst out. vm_compute in T. injection T as <-. split; [vm_compute; right; right; left; reflexivity|]. split; [vm_compute; tauto|]. intros t. apply X.
Qed.
Print Assumptions C97_footnote_target_refuted.
