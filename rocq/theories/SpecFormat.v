(** Specification for C103: formatting a document does not change what it is
    rendered to. *)
From Coq Require Import String.
From Verif Require Export SpecAst SpecRound.
Import ListNotations.
Open Scope list_scope.

(** line breaks count as spaces *)
Definition squash (s : str) : str := map (fun c => if N.eqb c c_nl then c_sp else c) s.
(** no blanks in the texts of a label *)
Definition firm_label (l : list inline) : Prop :=
  forall t, In (IText t) (flat_map inline_preorder l) -> ~ In c_sp t /\ ~ In c_nl t.
(** the labels of references and definitions cannot be wrapped *)
Definition firm (d : document) : Prop :=
  (forall r, In (ILinkReference r) (doc_inlines d) -> firm_label (lr_label r)) /\
  (forall x, In (BDefinition x) (doc_blocks d) -> firm_label (ld_label x)).
