(** Specification for C95: blocks that neither refer to other parts of a document
    nor are referred to. *)
From Verif Require Export SpecAst.
Import ListNotations.

Definition standalone_inline (i : inline) : Prop :=
  match i with IFootnoteReference _ | ILinkReference _ => False | _ => True end.
Definition standalone_block (b : block) : Prop :=
  match b with BFootnoteDefinition _ | BDefinition _ => False | _ => True end.
(** no reference and no definition anywhere, at any depth *)
Definition standalone (l : list block) : Prop :=
  Forall standalone_block (doc_blocks (Document l)) /\ Forall standalone_inline (doc_inlines (Document l)).
