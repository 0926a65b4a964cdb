(** Property C106: a document is no more deeply nested than its source is long.
    Specification: SpecDepth.v; [small_tables] as in C99 (SpecSize.v). *)
From Coq Require Import String Lia List NArith.
From Verif Require Import Chars Ast SpecAst Nom ParserConfig ParserBlock SpecParser SpecSize CharTree SyntaxDoc ConformanceParser PropEffect EffCost SpecDepth DepthFacts.
Import ListNotations.
Open Scope list_scope.

(** Every recursion over a parsed document (visitors, transformers, printers)
    is at most one deeper than the source has characters, ... *)
Theorem C106_depth : forall cfg s d, no_user_code cfg -> small_tables cfg -> i_text cfg <> Ignore -> b_paragraph cfg <> Ignore ->
  parse_markdown cfg s = Ok [] d -> doc_depth d <= List.length s + 1.
Proof.
  intros cfg s d Hu Hs Ht Hp E. apply parse_markdown_blocks in E; [|now apply no_user_ok|assumption..]. exact (blocks_depth_bound cfg Hu Hs _ _ E).
Qed.
Print Assumptions C106_depth.

(** ... and this bound is reached by sources of every length: nothing limits the
    depth of the recursion.  For n quotes around a letter, *)
Theorem C106_bound_reached : forall entities punct upper n, exists s d,
  List.length s = n + 1 /\ parse_markdown (default_config entities punct upper) s = Ok [] d /\ doc_depth d = List.length s + 1.
Proof.
  intros entities punct upper n. exists (quotes n), (Document [quotes_block n]).
  assert (L : List.length (quotes n) = n + 1) by (induction n as [|n IH]; cbn; [reflexivity|]; unfold char, str in *; lia).
  split; [exact L|]. split; [apply quotes_document|]. unfold char, str in *. rewrite L. unfold doc_depth, blocks_depth. cbn [d_blocks map deepest fold_right].
  assert (D : block_depth (quotes_block n) = n + 2); [|lia]. clear L. induction n as [|n IH]; [reflexivity|]. cbn [quotes_block block_depth map deepest fold_right]. lia.
Qed.
Print Assumptions C106_bound_reached.

(** *** the hypotheses are met: the default configuration with tables of a realistic size *)
Example C106_nonvacuous : forall entities punct, (forall n v, entities n = Some v -> List.length v <= List.length n) ->
  let cfg := default_config entities punct (fun c => [c]) in no_user_code cfg /\ small_tables cfg /\ i_text cfg <> Ignore /\ b_paragraph cfg <> Ignore.
Proof. intros entities punct H. repeat split; try discriminate; repeat constructor; exact H. Qed.
Example C106_sample : exists d, parse_markdown test_config (lit "> - **a *b* [c][~~d~~]**") = Ok [] d /\ doc_depth d = 7.
Proof. eexists. split; vm_compute; reflexivity. Qed.
