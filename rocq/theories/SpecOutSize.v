(** Specification for C107: what a document may contain for its numbers to be
    those of the program (64-bit list starts, fewer than 2^64 footnote references). *)
From Coq Require Import String.
From Verif Require Export SpecSize SpecHtml.
Import ListNotations.
Open Scope list_scope.

Definition numbers_fit (d : document) : Prop :=
  (forall n items, In (BList (MkList (Ordered n) items)) (doc_blocks d) -> (n < 2 ^ 64)%N) /\
  (N.of_nat (List.length (direct_refs d)) < 2 ^ 64)%N.
(** the characters a definition supplies to every reference to it *)
Definition target_size (x : link_definition) : nat := List.length (ld_destination x) + text_size (ld_title x).
