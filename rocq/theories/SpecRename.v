(** Specification for C104: labels are only names. *)
From Coq Require Import String.
From Verif Require Export SpecAst.
Import ListNotations.
Open Scope list_scope.

(** Replacing the labels of footnotes by [f] and those of links by [g]:
    references and definitions alike, everywhere in a document. *)
Section Rename.
Variable f : str -> str.
Variable g : list inline -> list inline.
Fixpoint rename_inline (i : inline) : inline :=
  match i with
  | IFootnoteReference l => IFootnoteReference (f l)
  | ILinkReference (LinkReference l t) => ILinkReference (LinkReference (g l) (map rename_inline t))
  | ILink (Link d t c) => ILink (Link d t (map rename_inline c))
  | IEmphasis c => IEmphasis (map rename_inline c)
  | IStrong c => IStrong (map rename_inline c)
  | IStrikethrough c => IStrikethrough (map rename_inline c)
  | IText s => IText s
  | ICode s => ICode s
  | ILineBreak => ILineBreak
  | IHtml s => IHtml s
  | IImage im => IImage im
  | IAutolink s => IAutolink s
  | IEmpty => IEmpty
  end.
Definition rename_inlines (l : list inline) : list inline := map rename_inline l.
Fixpoint rename_block (b : block) : block :=
  match b with
  | BParagraph c => BParagraph (rename_inlines c)
  | BHeading (Heading k c) => BHeading (Heading k (rename_inlines c))
  | BBlockQuote bs => BBlockQuote (map rename_block bs)
  | BList (MkList k items) =>
      BList (MkList k (map (fun it => ListItem (li_task it) (map rename_block (li_blocks it))) items))
  | BDefinition (LinkDefinition l d t) => BDefinition (LinkDefinition (g l) d t)
  | BTable (Table rows al) => BTable (Table (map (map rename_inlines) rows) al)
  | BFootnoteDefinition (FootnoteDefinition l bs) => BFootnoteDefinition (FootnoteDefinition (f l) (map rename_block bs))
  | BGitHubAlert (GitHubAlert t bs) => BGitHubAlert (GitHubAlert t (map rename_block bs))
  | BThematicBreak => BThematicBreak
  | BCodeBlock c => BCodeBlock c
  | BHtmlBlock s => BHtmlBlock s
  | BEmpty => BEmpty
  end.
Definition rename (d : document) : document := Document (map rename_block (d_blocks d)).
End Rename.

(** The labels that occur in a document *)
Definition note_label (d : document) (l : str) : Prop :=
  In (IFootnoteReference l) (doc_inlines d) \/ exists x, In (BFootnoteDefinition x) (doc_blocks d) /\ fd_label x = l.
Definition link_label (d : document) (l : list inline) : Prop :=
  (exists r, In (ILinkReference r) (doc_inlines d) /\ lr_label r = l) \/ exists x, In (BDefinition x) (doc_blocks d) /\ ld_label x = l.
(** ... no two of which become the same *)
Definition one_to_one {A B} (P : A -> Prop) (h : A -> B) : Prop := forall a b, P a -> P b -> h a = h b -> a = b.
(** footnotes referred to in the label of a link definition take part in the
    numbering *)
Definition notes (l : list inline) : list str := flat_map (fun i => match i with IFootnoteReference x => [x] | _ => [] end) l.
Definition keeps_notes (f : str -> str) (g : list inline -> list inline) (d : document) : Prop :=
  forall x, In (BDefinition x) (doc_blocks d) -> notes (g (ld_label x)) = map f (notes (ld_label x)).
(** every reference has a definition, outside of footnotes *)
Fixpoint outside (b : block) : list block :=
  b :: match b with
       | BBlockQuote bs => flat_map outside bs
       | BList l => flat_map (fun it => flat_map outside (li_blocks it)) (l_items l)
       | BGitHubAlert a => flat_map outside (ga_blocks a)
       | _ => []
       end.
Definition defined (d : document) : Prop :=
  (forall x, In (IFootnoteReference x) (doc_inlines d) -> exists n, In (BFootnoteDefinition n) (flat_map outside (d_blocks d)) /\ fd_label n = x) /\
  (forall r, In (ILinkReference r) (doc_inlines d) -> exists n, In (BDefinition n) (flat_map outside (d_blocks d)) /\ ld_label n = lr_label r).
