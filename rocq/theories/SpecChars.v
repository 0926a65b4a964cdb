(** The strings of a document (specification for C77). *)
From Coq Require Import String.
From Verif Require Export SpecInline.
Import ListNotations.
Open Scope list_scope.

Definition maybe (o : option str) : list str := match o with Some s => [s] | None => [] end.
(** the strings of a node itself *)
Definition inline_own (i : inline) : list str :=
  match i with
  | IText s | ICode s | IHtml s | IAutolink s | IFootnoteReference s => [s]
  | ILink (Link d t _) => d :: maybe t
  | IImage (Image d t a) => d :: a :: maybe t
  | _ => []
  end.
(** (the names of alerts are upper-cased and not considered here: C54) *)
Definition block_own (b : block) : list str :=
  match b with
  | BCodeBlock (CodeBlock k s) => s :: match k with Fenced i => maybe i | Indented => [] end
  | BHtmlBlock s => [s]
  | BDefinition (LinkDefinition _ d t) => d :: maybe t
  | BFootnoteDefinition (FootnoteDefinition l _) => [l]
  | _ => []
  end.
(** all strings of a document, at any depth *)
Definition doc_strings (d : document) : list str :=
  flat_map block_own (doc_blocks d) ++ flat_map inline_own (doc_inlines d).
