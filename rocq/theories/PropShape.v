(** C74: parsed documents are in normal form.  Specification: SpecShape.v.
    [doc_blocks] lists every block of a document, however deep; the inlines of a
    block are covered by [block_shape] through [inlines_shape]. *)
From Coq Require Import String List.
From Verif Require Import SpecParser ParserInline ParserBlock SpecInline SpecBlock SpecShape ShapeFacts SyntaxDoc ParserTotal.
Import ListNotations.
Open Scope list_scope.

Theorem C74_shape : forall entities punct upper, (forall k v, entities k = Some v -> v <> []) ->
  forall s r d, parse_markdown (default_config entities punct upper) s = Ok r d -> Forall block_shape (doc_blocks d).
Proof. intros entities punct upper H s r d E. now apply (document_shape entities punct upper H s r d) in E as [E _]. Qed.
Print Assumptions C74_shape.

(** nothing is lost entirely: only blank input gives an empty document *)
Theorem C74_empty_iff_blank : forall entities punct upper, (forall k v, entities k = Some v -> v <> []) ->
  forall s r d, parse_markdown (default_config entities punct upper) s = Ok r d -> (d_blocks d = [] <-> blank s).
Proof.
  intros entities punct upper H s r d E. split.
  - intros X. destruct (parse_total (default_config entities punct upper) ltac:(split; discriminate) ltac:(discriminate) ltac:(discriminate) s) as [d' E'].
    rewrite E in E'. injection E' as -> ->. apply parse_markdown_blocks in E; [|first [discriminate|split; discriminate]..]. rewrite X in E.
    inversion E as [|s0 bl m h r o l RP F M B EQ EL]; [assumption|]. subst. apply app_eq_nil in EL as [-> ->].
    apply after_blanks in RP. pose proof (proj1 (proj2 (proj2 (block_ok _ _ _ H))) _ _ M) as M'. destruct (M' (shape_ok _ _ _ _ _ _ RP F)) as [_ N]. congruence.
  - intros B. assert (B' : blocks (default_config entities punct upper) s []) by now apply Blocks_end.
    apply (parse_markdown_blocks (default_config entities punct upper) ltac:(split; discriminate) ltac:(discriminate) ltac:(discriminate) s (Document [])) in B'.
    rewrite E in B'. now injection B' as _ ->.
Qed.
Print Assumptions C74_empty_iff_blank.

(** The hypotheses are met, and every clause has an instance. *)
Example C74_nonvacuous : exists d, parse_markdown (default_config (fun _ => None) (fun _ => false) (fun c => [c])) (lit "# a `b` [c](d)

> quote [x]

1. [ ] item
2. other

|h|k|
|-|-|
| |

<div>
</div>

[^f]: note

[l]: /u

> [!TODO]
> do") = Ok [] d /\ Forall block_shape (doc_blocks d) /\ List.length (doc_blocks d) = 13.
Proof.
  destruct (parse_total (default_config (fun _ => None) (fun _ => false) (fun c => [c])) ltac:(split; discriminate) ltac:(discriminate) ltac:(discriminate) (lit "# a `b` [c](d)

> quote [x]

1. [ ] item
2. other

|h|k|
|-|-|
| |

<div>
</div>

[^f]: note

[l]: /u

> [!TODO]
> do")) as [d E]. exists d. split; [exact E|]. split; [apply (C74_shape (fun _ => None) (fun _ => false) (fun c => [c]) ltac:(discriminate) _ _ _ E)|].
  vm_compute in E. injection E as <-. vm_compute. reflexivity.
Qed.
