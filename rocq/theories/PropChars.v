(** C77: the parser invents no text.  Specification: SpecChars.v. *)
From Coq Require Import String List.
From Verif Require Import SpecParser Nom ParserInline ParserInlineFacts ParserBlock ParserTotal SyntaxDoc SpecInline SpecBlock SpecChars CharTree.
Import ListNotations.
Open Scope list_scope.

(** Without user code and without character references ("&"), every character
    of every string of the document occurs in the source; only line feeds
    (between the lines of a block) and spaces (for the line endings inside of
    code spans) are added. *)
Theorem C77_no_invention : forall cfg s d, no_user_code cfg -> i_text cfg <> Ignore -> b_paragraph cfg <> Ignore ->
  ~ In (ch "&") s -> parse_markdown cfg s = Ok [] d ->
  forall t c, In t (doc_strings d) -> In c t -> In c s \/ c = 10%N \/ c = 32%N.
Proof.
  intros cfg s d Hu Ht Hp NA E t c J K. assert (Hc := no_user_ok cfg Hu). apply parse_markdown_blocks in E; [|assumption..].
  set (Q := fun x => x <> ch "&" /\ (In x s \/ x = 10%N \/ x = 32%N)).
  assert (H : Forall (Forall Q) (doc_strings d)).
  { apply strings_ok. apply (proj2 (proj2 (proj2 (block_chars Q ltac:(split; [discriminate|right; now left]) ltac:(split; [discriminate|right; now right]) ltac:(intros [X _]; now apply X) cfg Hu))) _ _ E).
    apply Forall_forall. intros x X. split; [intros ->; contradiction|now left]. }
  pose proof (proj1 (Forall_forall _ _) H t J) as H'. exact (proj2 (proj1 (Forall_forall _ _) H' c K)).
Qed.
Print Assumptions C77_no_invention.
(** The condition on "&" is needed. *)
Example C77_reference : parse_markdown (default_config (fun _ => None) (fun _ => false) (fun c => [c])) (lit "&#65;") = Ok [] (Document [BParagraph [IText (lit "A")]]).
Proof. vm_compute. reflexivity. Qed.
Example C77_nonvacuous : exists d, parse_markdown (default_config (fun _ => None) (fun _ => false) (fun c => [c])) (lit "> a `b
> c` [d](e 'f')

```rust
x
y
```") = Ok [] d /\ no_user_code (default_config (fun _ => None) (fun _ => false) (fun c => [c])) /\
  doc_strings d = [lit "x
y"; lit "rust"; lit "a "; lit "b c"; lit " "; lit "e"; lit "f"; lit "d"].
Proof. eexists. split; [vm_compute; reflexivity|]. split; [split; [repeat (apply Forall_cons; [exact I|]); apply Forall_nil|split; [repeat (apply Forall_cons; [exact I|]); apply Forall_nil|split; reflexivity]]|vm_compute; reflexivity]. Qed.
