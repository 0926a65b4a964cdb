(** The size of a document (specification for C99). *)
From Coq Require Import String.
From Verif Require Export SpecParser.
Import ListNotations.
Open Scope list_scope.

Definition total (l : list nat) : nat := fold_right Nat.add 0 l.
Definition text_size (o : option str) : nat := match o with Some s => List.length s | None => 0 end.
(** one for every inline and one for every character of its strings *)
Fixpoint inline_size (i : inline) : nat :=
  let sizes l := total (map inline_size l) in
  1 + match i with
      | IText s | ICode s | IHtml s | IAutolink s | IFootnoteReference s => List.length s
      | ILink (Link d t c) => List.length d + text_size t + sizes c
      | IImage (Image d t a) => List.length d + text_size t + List.length a
      | ILinkReference (LinkReference l t) => sizes l + sizes t
      | IEmphasis c | IStrong c | IStrikethrough c => sizes c
      | ILineBreak | IEmpty => 0
      end.
Definition inlines_size (l : list inline) : nat := total (map inline_size l).
(** ... and for every block, list item, table row and table cell *)
Fixpoint block_size (b : block) : nat :=
  let sizes l := total (map block_size l) in
  1 + match b with
      | BParagraph c | BHeading (Heading _ c) => inlines_size c
      | BCodeBlock (CodeBlock (Fenced i) s) => text_size i + List.length s
      | BCodeBlock (CodeBlock Indented s) | BHtmlBlock s => List.length s
      | BDefinition (LinkDefinition l d t) => inlines_size l + List.length d + text_size t
      | BBlockQuote bs => sizes bs
      | BList (MkList _ items) => total (map (fun it => 1 + sizes (li_blocks it)) items)
      | BFootnoteDefinition (FootnoteDefinition l bs) => List.length l + sizes bs
      | BGitHubAlert (GitHubAlert t bs) => match t with Custom n => List.length n | _ => 0 end + sizes bs
      | BTable (Table rows al) => List.length al + total (map (fun row => 1 + total (map (fun c => 1 + inlines_size c) row)) rows)
      | BThematicBreak | BEmpty => 0
      end.
Definition blocks_size (l : list block) : nat := total (map block_size l).
Definition doc_size (d : document) : nat := blocks_size (d_blocks d).

(** What the tables of the configuration must satisfy: a named character
    reference stands for no more characters than its name has, and upper-casing
    makes at most three characters of one (both hold of the HTML5 entities and of
    Unicode). *)
Definition small_tables (cfg : config) : Prop :=
  (forall n v, html_entities cfg n = Some v -> List.length v <= List.length n) /\
  (forall c, List.length (upper_table cfg c) <= 3).
