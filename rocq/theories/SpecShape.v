(** The shape of parsed documents (specification for C74): what a consumer of
    the parser can rely on at every node. *)
From Coq Require Import String.
From Verif Require Export SpecInline.
Import ListNotations.
Open Scope list_scope.

(** Inlines: nothing empty, nothing the parser cannot write. *)
Definition inline_shape (i : inline) : Prop :=
  match i with
  | IText t => t <> []
  | ILineBreak => True
  | ICode c => c <> []
  | IHtml _ | IEmpty => False
  | ILink (Link d t c) => c <> []
  | ILinkReference (LinkReference label text) => label <> [] /\ text <> []
  | IImage (Image d t alt) => ~ In (ch "]") alt
  | IEmphasis c | IStrong c | IStrikethrough c => c <> []
  | IAutolink u => uri u \/ email u
  | IFootnoteReference l => l <> [] /\ all is_alnum l
  end.
(** every node of a list of inlines *)
Definition inlines_shape (l : list inline) : Prop := Forall inline_shape (flat_map inline_preorder l).
(** Cells that are missing in the source hold one empty text; present but blank
    cells hold nothing. *)
Definition cell_shape (c : list inline) : Prop := c = [IText []] \/ inlines_shape c.
(** An alert's own name: an identifier that does not begin like a standard one. *)
Definition alert_shape (t : alert_type) : Prop :=
  match t with
  | Custom n => identifier n /\ forall std ty rest, In (std, ty) standard_alerts -> n <> std ++ rest
  | _ => True
  end.
Definition block_shape (b : block) : Prop :=
  match b with
  | BParagraph c => c <> [] /\ inlines_shape c
  | BHeading (Heading k c) => c <> [] /\ inlines_shape c /\ match k with Atx n => (1 <= n <= 6)%N | Setext _ => True end
  | BThematicBreak => True
  | BBlockQuote bs => bs <> []
  | BList (MkList k items) => items <> [] /\ match k with Ordered n => (n < 2 ^ 64)%N | Bullet _ => True end
  | BCodeBlock (CodeBlock k s) =>
      match k with
      | Indented => ~ blank s
      | Fenced (Some info) => info <> [] /\ ~ In 10%N info
      | Fenced None => True
      end
  | BHtmlBlock s => begins_with (ch "<") s
  | BDefinition (LinkDefinition label d t) => label <> [] /\ inlines_shape label
  | BTable t => rectangular t /\ Forall (Forall cell_shape) (t_rows t)
  | BFootnoteDefinition (FootnoteDefinition label bs) => label <> [] /\ ~ In (ch "]") label
  | BGitHubAlert (GitHubAlert t bs) => alert_shape t
  | BEmpty => False
  end.
