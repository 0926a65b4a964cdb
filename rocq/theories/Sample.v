(** A document exercising nested structure, used by the non-vacuity examples. *)
From Verif Require Export Ast.
From Coq Require Import String.
Open Scope string_scope.
Definition sample : document := Document [
  BHeading (Heading (Atx 2) [IText (lit "Title "); IStrong [IText (lit "bold")]]);
  BParagraph [IText (lit "  see   the "); ILink (Link (lit "u1") (Some (lit "t")) [IText (lit "link"); IImage (Image (lit "i.png") None (lit "alt"))]);
              ILineBreak; ICode (lit "x"); IAutolink (lit "http://a"); IHtml (lit "<b>"); IFootnoteReference (lit "f")];
  BBlockQuote [BParagraph [IEmphasis [IText (lit "q"); IText (lit " ")]];
               BList (MkList (Ordered 3) [ListItem None [BParagraph [IText (lit "one")]; BThematicBreak];
                                          ListItem (Some Complete) [BParagraph [IText (lit "two")]]])];
  BTable (Table [[[IText (lit "a")]; [IText (lit "b")]]; [[IText (lit "c")]; []]] [ALeft; ARight]);
  BCodeBlock (CodeBlock (Fenced (Some (lit "rust"))) (lit "fn"));
  BHtmlBlock (lit "<hr>");
  BDefinition (LinkDefinition [IText (lit "l")] (lit "d") None);
  BFootnoteDefinition (FootnoteDefinition (lit "f") [BParagraph [ILinkReference (LinkReference [IText (lit "l")] [IText (lit "txt")])]]);
  BGitHubAlert (GitHubAlert Warning [BParagraph [IStrikethrough [IText (lit "w")]]]);
  BParagraph []; BEmpty].
