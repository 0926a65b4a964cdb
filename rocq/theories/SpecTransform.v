(** Independent specifications for the traversal / rewriting properties. *)
From Verif Require Export SpecAst.

(** ** Document-order events (C08) *)
Inductive event :=
| EDocument (d : document) | EBlock (b : block) | EInline (i : inline)
| ETableCell (c : table_cell) | EListItem (it : list_item) | ETableRow (r : table_row)
| EHeading (h : heading) | ELink (l : link) | EImage (im : image)
| ECodeBlock (c : code_block) | EText (s : str)
| EFootnoteDefinition (f : footnote_definition) | EGitHubAlert (a : github_alert).

(** A node is announced, then its more specific structure (if it has one),
    then what it contains, left to right. *)
Fixpoint events_inline (i : inline) : list event :=
  EInline i ::
  match i with
  | IText s => [EText s]
  | IImage im => [EImage im]
  | ILink l => ELink l :: flat_map events_inline (link_children l)
  | ILinkReference l => flat_map events_inline (lr_label l) ++ flat_map events_inline (lr_text l)
  | IEmphasis c | IStrong c | IStrikethrough c => flat_map events_inline c
  | _ => []
  end.
Definition events_cell (c : table_cell) : list event := ETableCell c :: flat_map events_inline c.
Definition events_row (r : table_row) : list event := ETableRow r :: flat_map events_cell r.
Fixpoint events_block (b : block) : list event :=
  EBlock b ::
  match b with
  | BParagraph c => flat_map events_inline c
  | BHeading h => EHeading h :: flat_map events_inline (h_content h)
  | BBlockQuote bs => flat_map events_block bs
  | BList l => flat_map (fun it => EListItem it :: flat_map events_block (li_blocks it)) (l_items l)
  | BCodeBlock c => [ECodeBlock c]
  | BDefinition d => flat_map events_inline (ld_label d)
  | BTable t => flat_map events_row (t_rows t)
  | BFootnoteDefinition f => EFootnoteDefinition f :: flat_map events_block (fd_blocks f)
  | BGitHubAlert a => EGitHubAlert a :: flat_map events_block (ga_blocks a)
  | BThematicBreak | BHtmlBlock _ | BEmpty => []
  end.
Definition events_document (d : document) : list event :=
  EDocument d :: flat_map events_block (d_blocks d).

(** ** Pointwise rewriting of a document: [leaf] is applied to every inline
    without children, [url] to every link destination, [html] to every HTML
    block; everything else is copied. *)
Section Rewrite.
  Variable leaf : inline -> inline.
  Variable url : str -> str.
  Variable html : str -> str.
  Fixpoint rewrite_inline (i : inline) : inline :=
    match i with
    | IEmphasis c => IEmphasis (map rewrite_inline c)
    | IStrong c => IStrong (map rewrite_inline c)
    | IStrikethrough c => IStrikethrough (map rewrite_inline c)
    | ILink l => ILink (Link (url (link_destination l)) (link_title l) (map rewrite_inline (link_children l)))
    | ILinkReference l =>
        ILinkReference (LinkReference (map rewrite_inline (lr_label l)) (map rewrite_inline (lr_text l)))
    | other => leaf other
    end.
  Fixpoint rewrite_block (b : block) : block :=
    match b with
    | BParagraph c => BParagraph (map rewrite_inline c)
    | BHeading h => BHeading (Heading (h_kind h) (map rewrite_inline (h_content h)))
    | BBlockQuote bs => BBlockQuote (map rewrite_block bs)
    | BList l => BList (MkList (l_kind l)
                   (map (fun it => ListItem (li_task it) (map rewrite_block (li_blocks it))) (l_items l)))
    | BDefinition d => BDefinition (LinkDefinition (map rewrite_inline (ld_label d)) (ld_destination d) (ld_title d))
    | BTable t => BTable (Table (map (map (map rewrite_inline)) (t_rows t)) (t_alignments t))
    | BFootnoteDefinition f => BFootnoteDefinition (FootnoteDefinition (fd_label f) (map rewrite_block (fd_blocks f)))
    | BGitHubAlert a => BGitHubAlert (GitHubAlert (ga_type a) (map rewrite_block (ga_blocks a)))
    | BHtmlBlock s => BHtmlBlock (html s)
    | BThematicBreak | BCodeBlock _ | BEmpty => b
    end.
  Definition rewrite_document (d : document) : document := Document (map rewrite_block (d_blocks d)).
End Rewrite.

(** The six kinds of strings the convenience methods rewrite. *)
Inductive skind := KText | KImageUrl | KLinkUrl | KAutolink | KCode | KHtml.

Definition leaf_of (k : skind) (f : str -> str) (i : inline) : inline :=
  match k, i with
  | KText, IText s => IText (f s)
  | KImageUrl, IImage im => IImage (Image (f (image_destination im)) (image_title im) (image_alt im))
  | KAutolink, IAutolink s => IAutolink (f s)
  | KCode, ICode s => ICode (f s)
  | KHtml, IHtml s => IHtml (f s)
  | _, _ => i
  end.
Definition url_of (k : skind) (f : str -> str) : str -> str :=
  match k with KLinkUrl => f | _ => fun s => s end.
Definition html_of (k : skind) (f : str -> str) : str -> str :=
  match k with KHtml => f | _ => fun s => s end.

(** The document with every string of kind [k] replaced by its image under [f]. *)
Definition map_strings (k : skind) (f : str -> str) : document -> document :=
  rewrite_document (leaf_of k f) (url_of k f) (html_of k f).

(** The strings of kind [k] of a document, in document order. *)
Definition inline_string (k : skind) (i : inline) : list str :=
  match k, i with
  | KText, IText s | KAutolink, IAutolink s | KCode, ICode s | KHtml, IHtml s => [s]
  | KImageUrl, IImage im => [image_destination im]
  | KLinkUrl, ILink l => [link_destination l]
  | _, _ => []
  end.
Definition block_string (k : skind) (b : block) : list str :=
  match k, b with KHtml, BHtmlBlock s => [s] | _, _ => [] end.
Definition strings_of (k : skind) (d : document) : list str :=
  flat_map (fun b => block_string k b ++ flat_map (inline_string k) (flat_map inline_preorder (block_inlines b)))
    (doc_blocks d).

(** The document with every string of kind [k] blanked out. *)
Definition skeleton (k : skind) (d : document) : document := map_strings k (fun _ => []) d.

(** Text nodes that are empty or all whitespace become [Empty]. *)
Definition drop_blank (i : inline) : inline :=
  match i with
  | IText s => if forallb is_whitespace s then IEmpty else i
  | _ => i
  end.

(** ** Expansion by splicing (C20): every inline [i] standing directly in a
    paragraph, heading or definition label - at top level or inside quotes,
    footnotes and alerts - is replaced by the inlines [f i]; all else is copied. *)
Section Splice.
  Variable f : inline -> list inline.
  Fixpoint splice_block (b : block) : block :=
    match b with
    | BParagraph c => BParagraph (flat_map f c)
    | BHeading h => BHeading (Heading (h_kind h) (flat_map f (h_content h)))
    | BDefinition d => BDefinition (LinkDefinition (flat_map f (ld_label d)) (ld_destination d) (ld_title d))
    | BBlockQuote bs => BBlockQuote (map splice_block bs)
    | BFootnoteDefinition fd => BFootnoteDefinition (FootnoteDefinition (fd_label fd) (map splice_block (fd_blocks fd)))
    | BGitHubAlert a => BGitHubAlert (GitHubAlert (ga_type a) (map splice_block (ga_blocks a)))
    | BThematicBreak | BList _ | BCodeBlock _ | BHtmlBlock _ | BTable _ | BEmpty => b
    end.
End Splice.
(** Expansion of blocks: [f b = Some l] replaces [b] by [l], [None] keeps [b]
    and descends into quotes, footnotes and alerts. *)
Section SpliceBlocks.
  Variable f : block -> option (list block).
  Fixpoint splice_blocks (b : block) : list block :=
    match f b with
    | Some l => l
    | None =>
      [match b with
       | BBlockQuote bs => BBlockQuote (flat_map splice_blocks bs)
       | BFootnoteDefinition fd => BFootnoteDefinition (FootnoteDefinition (fd_label fd) (flat_map splice_blocks (fd_blocks fd)))
       | BGitHubAlert a => BGitHubAlert (GitHubAlert (ga_type a) (flat_map splice_blocks (ga_blocks a)))
       | _ => b
       end]
    end.
End SpliceBlocks.

(** ** Words (C16) *)
(** [words s ws]: [ws] is the sequence of maximal whitespace-free pieces of [s]. *)
Inductive words : str -> list str -> Prop :=
| words_nil : words [] []
| words_space c s ws : is_whitespace c = true -> words s ws -> words (c :: s) ws
| words_last w : w <> [] -> forallb (fun c => negb (is_whitespace c)) w = true -> words w [w]
| words_word w c s ws : w <> [] -> forallb (fun c => negb (is_whitespace c)) w = true ->
    is_whitespace c = true -> words s ws -> words (w ++ c :: s) (w :: ws).
(** Canonical spacing: non-empty whitespace-free words separated by one U+0020. *)
Definition canonical (s : str) : Prop :=
  exists ws, Forall (fun w => w <> [] /\ forallb (fun c => negb (is_whitespace c)) w = true) ws
             /\ s = join [c_sp] ws.
