(** C92: the parser loses no text.  Specification: SpecLoss.v. *)
From Coq Require Import String List.
From Verif Require Import SpecParser Nom ParserInline ParserInlineFacts ParserBlock ParserTotal SyntaxDoc SpecInline SpecBlock ShapeFacts CharFacts SpecLoss LossFacts.
Import ListNotations.
Open Scope list_scope.

(** The letters of the source are exactly the letters of what the document says,
    in the same order, whatever the source: no construct, closed or not, drops,
    repeats or moves text.  Character references are excluded; the cells of a
    table row beyond the header's are the only text lost ([says_rows]). *)
Theorem C92_nothing_lost : forall cfg s d, keeps_all cfg -> sane_upper cfg -> i_text cfg <> Ignore -> b_paragraph cfg <> Ignore ->
  ~ In (ch "&") s -> parse_markdown cfg s = Ok [] d ->
  exists w, says cfg d w /\ letters w = letters s.
Proof.
  intros cfg s d K U Ht Hp N E. apply parse_markdown_blocks in E; [|exact (Hc cfg K)|assumption..].
  apply (proj2 (proj2 (proj2 (block_loss cfg K U))) _ _ E). apply Forall_forall. intros x X ->. contradiction.
Qed.
Print Assumptions C92_nothing_lost.

(** Without bars there are no tables, so nothing at all is lost. *)
Theorem C92_no_tables : forall cfg s d, keeps_all cfg -> i_text cfg <> Ignore -> b_paragraph cfg <> Ignore ->
  ~ In (ch "|") s -> parse_markdown cfg s = Ok [] d -> forall t, ~ In (BTable t) (doc_blocks d).
Proof.
  intros cfg s d K Ht Hp N E t I. apply parse_markdown_blocks in E; [|exact (Hc cfg K)|assumption..].
  assert (H : no_tables (d_blocks d)).
  { apply (proj2 (proj2 (proj2 (no_tables_mut cfg K))) _ _ E). apply Forall_forall. intros x X ->. contradiction. }
  exact (proj1 (Forall_forall _ _) H _ I t eq_refl).
Qed.
Print Assumptions C92_no_tables.

Definition cfg0 : config := default_config (fun _ => None) (fun _ => false) (fun c => [c]).
Lemma cfg0_keeps : keeps_all cfg0.
Proof. split; [repeat (apply Forall_cons; [now left|]); apply Forall_nil|]. split; [repeat (apply Forall_cons; [now left|]); apply Forall_nil|split; reflexivity]. Qed.
Lemma cfg0_upper : sane_upper cfg0.
Proof.
  intros c H. split; [discriminate|]. constructor; [|constructor]. intros [X|[X|[X|[]]]]; subst; revert H; vm_compute; intros H; now elim H.
Qed.
(** The condition on "&" is needed, *)
Example C92_reference : parse_markdown cfg0 (lit "&#65;") = Ok [] (Document [BParagraph [IText (lit "A")]]) /\ letters (lit "&#65;") = [].
Proof. split; vm_compute; reflexivity. Qed.
(** and extra cells are lost. *)
Example C92_extra_cell : parse_markdown cfg0 (lit "|a|
|-|
|b|c|") = Ok [] (Document [BTable (Table [[[IText (lit "a")]]; [[IText (lit "b")]]] [ANone])]).
Proof. vm_compute. reflexivity. Qed.
Example C92_nonvacuous : exists d w, parse_markdown cfg0 (lit "> [!Note]
> a `b
> c` [d](e 'f') [g][] \h

* [X] i
  **j

```rust
x
 y
```
") = Ok [] d /\ says cfg0 d w /\ w = lit "Notea b c def g \hXi
**jrustx
 y".
Proof.
  eexists. eexists. split; [vm_compute; reflexivity|]. split.
  - unfold says. cbn [d_blocks]. econstructor; [eapply says_alert with (name := lit "NOTE") (n := lit "Note"); [left; now left|reflexivity|]|econstructor; [constructor; econstructor; [apply (says_done (ch "X")); right; now left| |constructor]|]].
    + repeat first [apply says_short | econstructor].
    + repeat econstructor.
    + repeat econstructor.
  - vm_compute. reflexivity.
Qed.
