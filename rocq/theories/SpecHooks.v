(** Specifications for C87-C90: what an overridden method of a transformer sees
    and does.  Of the modelled code only the two trait types are used here (the
    last section), not the traversals. *)
From Verif Require Export SpecTransform Transformer GenericTransformer.

(** ** Rebuilding a tree bottom-up.  For every kind of node a function gets the
    node as it was and the same node with its parts already rebuilt. *)
Record rebuilders := Rebuilders {
  on_document : document -> document -> document;
  on_block : block -> block -> block;
  on_inline : inline -> inline -> inline;
  on_table_cell : table_cell -> table_cell -> table_cell;
  on_list_item : list_item -> list_item -> list_item;
  on_table_row : table_row -> table_row -> table_row;
  on_heading : heading -> heading -> heading;
  on_link : link -> link -> link;
  on_image : image -> image -> image;
  on_code_block : code_block -> code_block -> code_block;
  on_text : str -> str -> str;
  on_footnote_definition : footnote_definition -> footnote_definition -> footnote_definition;
  on_github_alert : github_alert -> github_alert -> github_alert }.

Section Rebuild.
  Variable f : rebuilders.
  Fixpoint rebuild_inline (i : inline) : inline :=
    on_inline f i
      match i with
      | IText s => IText (on_text f s s)
      | IImage im => IImage (on_image f im im)
      | ILink l =>
          ILink (on_link f l (Link (link_destination l) (link_title l) (map rebuild_inline (link_children l))))
      | ILinkReference l =>
          ILinkReference (LinkReference (map rebuild_inline (lr_label l)) (map rebuild_inline (lr_text l)))
      | IEmphasis c => IEmphasis (map rebuild_inline c)
      | IStrong c => IStrong (map rebuild_inline c)
      | IStrikethrough c => IStrikethrough (map rebuild_inline c)
      | ILineBreak | ICode _ | IHtml _ | IAutolink _ | IFootnoteReference _ | IEmpty => i
      end.
  Definition rebuild_cell (c : table_cell) : table_cell := on_table_cell f c (map rebuild_inline c).
  Definition rebuild_row (r : table_row) : table_row := on_table_row f r (map rebuild_cell r).
  Fixpoint rebuild_block (b : block) : block :=
    on_block f b
      match b with
      | BParagraph c => BParagraph (map rebuild_inline c)
      | BHeading h => BHeading (on_heading f h (Heading (h_kind h) (map rebuild_inline (h_content h))))
      | BBlockQuote bs => BBlockQuote (map rebuild_block bs)
      | BList l =>
          BList (MkList (l_kind l)
            (map (fun it => on_list_item f it (ListItem (li_task it) (map rebuild_block (li_blocks it)))) (l_items l)))
      | BCodeBlock c => BCodeBlock (on_code_block f c c)
      | BDefinition d => BDefinition (LinkDefinition (map rebuild_inline (ld_label d)) (ld_destination d) (ld_title d))
      | BTable t => BTable (Table (map rebuild_row (t_rows t)) (t_alignments t))
      | BFootnoteDefinition d =>
          BFootnoteDefinition (on_footnote_definition f d (FootnoteDefinition (fd_label d) (map rebuild_block (fd_blocks d))))
      | BGitHubAlert a =>
          BGitHubAlert (on_github_alert f a (GitHubAlert (ga_type a) (map rebuild_block (ga_blocks a))))
      | BThematicBreak | BHtmlBlock _ | BEmpty => b
      end.
  Definition rebuild_document (d : document) : document :=
    on_document f d (Document (map rebuild_block (d_blocks d))).
End Rebuild.

(** ** The same for trees with user data *)
Inductive gevent (T : Type) :=
| GEDocument (d : gdocument T) | GEBlock (b : gblock T) | GEInline (i : ginline T)
| GETableCell (c : list (ginline T)) | GEListItem (it : glist_item T) | GETableRow (r : list (list (ginline T)))
| GEHeading (h : gheading T) | GELink (l : glink T) | GEImage (im : gimage T)
| GECodeBlock (c : gcode_block T)
| GEFootnoteDefinition (f : gfootnote_definition T) | GEGitHubAlert (a : ggithub_alert T).
Arguments GEDocument {T}. Arguments GEBlock {T}. Arguments GEInline {T}. Arguments GETableCell {T}.
Arguments GEListItem {T}. Arguments GETableRow {T}. Arguments GEHeading {T}. Arguments GELink {T}.
Arguments GEImage {T}. Arguments GECodeBlock {T}. Arguments GEFootnoteDefinition {T}. Arguments GEGitHubAlert {T}.

Section GEvents.
  Context {T : Type}.
  Fixpoint gevents_inline (i : ginline T) : list (gevent T) :=
    GEInline i ::
    match i with
    | GIImage im => [GEImage im]
    | GILink l => GELink l :: flat_map gevents_inline (gl_children l)
    | GILinkReference l => flat_map gevents_inline (glr_label l) ++ flat_map gevents_inline (glr_text l)
    | GIEmphasis c _ | GIStrong c _ | GIStrikethrough c _ => flat_map gevents_inline c
    | _ => []
    end.
  Definition gevents_cell (c : list (ginline T)) : list (gevent T) := GETableCell c :: flat_map gevents_inline c.
  Definition gevents_row (r : list (list (ginline T))) : list (gevent T) := GETableRow r :: flat_map gevents_cell r.
  Fixpoint gevents_block (b : gblock T) : list (gevent T) :=
    GEBlock b ::
    match b with
    | GBParagraph c _ => flat_map gevents_inline c
    | GBHeading h => GEHeading h :: flat_map gevents_inline (gh_content h)
    | GBBlockQuote bs _ => flat_map gevents_block bs
    | GBList l => flat_map (fun it => GEListItem it :: flat_map gevents_block (gli_blocks it)) (gll_items l)
    | GBCodeBlock c => [GECodeBlock c]
    | GBDefinition d => flat_map gevents_inline (gld_label d)
    | GBTable t => flat_map gevents_row (gt_rows t)
    | GBFootnoteDefinition f => GEFootnoteDefinition f :: flat_map gevents_block (gfd_blocks f)
    | GBGitHubAlert a => GEGitHubAlert a :: flat_map gevents_block (gga_blocks a)
    | GBThematicBreak _ | GBHtmlBlock _ _ | GBEmpty _ => []
    end.
  Definition gevents_document (d : gdocument T) : list (gevent T) :=
    GEDocument d :: flat_map gevents_block (gd_blocks d).

  Record grebuilders := GRebuilders {
    gon_document : gdocument T -> gdocument T -> gdocument T;
    gon_block : gblock T -> gblock T -> gblock T;
    gon_inline : ginline T -> ginline T -> ginline T;
    gon_table_cell : list (ginline T) -> list (ginline T) -> list (ginline T);
    gon_list_item : glist_item T -> glist_item T -> glist_item T;
    gon_table_row : list (list (ginline T)) -> list (list (ginline T)) -> list (list (ginline T));
    gon_heading : gheading T -> gheading T -> gheading T;
    gon_link : glink T -> glink T -> glink T;
    gon_image : gimage T -> gimage T -> gimage T;
    gon_code_block : gcode_block T -> gcode_block T -> gcode_block T;
    gon_footnote_definition : gfootnote_definition T -> gfootnote_definition T -> gfootnote_definition T;
    gon_github_alert : ggithub_alert T -> ggithub_alert T -> ggithub_alert T }.

  Variable f : grebuilders.
  Fixpoint grebuild_inline (i : ginline T) : ginline T :=
    gon_inline f i
      match i with
      | GIImage im => GIImage (gon_image f im im)
      | GILink l =>
          GILink (gon_link f l (GLink (gl_destination l) (gl_title l) (map grebuild_inline (gl_children l)) (gl_data l)))
      | GILinkReference l =>
          GILinkReference (GLinkReference (map grebuild_inline (glr_label l)) (map grebuild_inline (glr_text l)) (glr_data l))
      | GIEmphasis c u => GIEmphasis (map grebuild_inline c) u
      | GIStrong c u => GIStrong (map grebuild_inline c) u
      | GIStrikethrough c u => GIStrikethrough (map grebuild_inline c) u
      | _ => i
      end.
  Definition grebuild_cell (c : list (ginline T)) := gon_table_cell f c (map grebuild_inline c).
  Definition grebuild_row (r : list (list (ginline T))) := gon_table_row f r (map grebuild_cell r).
  Fixpoint grebuild_block (b : gblock T) : gblock T :=
    gon_block f b
      match b with
      | GBParagraph c u => GBParagraph (map grebuild_inline c) u
      | GBHeading h => GBHeading (gon_heading f h (GHeading (gh_kind h) (map grebuild_inline (gh_content h)) (gh_data h)))
      | GBBlockQuote bs u => GBBlockQuote (map grebuild_block bs) u
      | GBList l =>
          GBList (GMkList (gll_kind l)
            (map (fun it => gon_list_item f it (GListItem (gli_task it) (map grebuild_block (gli_blocks it)) (gli_data it)))
               (gll_items l)) (gll_data l))
      | GBCodeBlock c => GBCodeBlock (gon_code_block f c c)
      | GBDefinition d =>
          GBDefinition (GLinkDefinition (map grebuild_inline (gld_label d)) (gld_destination d) (gld_title d) (gld_data d))
      | GBTable t => GBTable (GTable (map grebuild_row (gt_rows t)) (gt_alignments t) (gt_data t))
      | GBFootnoteDefinition d =>
          GBFootnoteDefinition (gon_footnote_definition f d
            (GFootnoteDefinition (gfd_label d) (map grebuild_block (gfd_blocks d)) (gfd_data d)))
      | GBGitHubAlert a =>
          GBGitHubAlert (gon_github_alert f a (GGitHubAlert (gga_type a) (map grebuild_block (gga_blocks a)) (gga_data a)))
      | GBThematicBreak _ | GBHtmlBlock _ _ | GBEmpty _ => b
      end.
  Definition grebuild_document (d : gdocument T) : gdocument T :=
    gon_document f d (GDocument (map grebuild_block (gd_blocks d)) (gd_data d)).
End GEvents.
Arguments grebuilders : clear implicits.

(** ** Expansion of trees with user data: for each method a function giving the
    nodes to put in the place of one node.  [rep_block] and [rep_inline] may leave
    a node to the other functions by returning [None]. *)
Section Replace.
  Context {T : Type}.
  Record replacers := Replacers {
    rep_block : gblock T -> option (list (gblock T));
    rep_inline : ginline T -> option (list (ginline T));
    rep_heading : gheading T -> list (gheading T);
    rep_link : glink T -> list (glink T);
    rep_image : gimage T -> list (gimage T);
    rep_code_block : gcode_block T -> list (gcode_block T);
    rep_list_item : glist_item T -> list (glist_item T);
    rep_table_row : list (list (ginline T)) -> list (list (list (ginline T)));
    rep_footnote : gfootnote_definition T -> list (gfootnote_definition T);
    rep_alert : ggithub_alert T -> list (ggithub_alert T) }.
  Variable f : replacers.
  Fixpoint replace_inline (i : ginline T) : list (ginline T) :=
    match rep_inline f i with
    | Some l => l
    | None =>
        match i with
        | GILink l => map GILink (rep_link f l)
        | GIImage im => map GIImage (rep_image f im)
        | GILinkReference l =>
            [GILinkReference (GLinkReference (flat_map replace_inline (glr_label l)) (flat_map replace_inline (glr_text l)) (glr_data l))]
        | GIEmphasis c u => [GIEmphasis (flat_map replace_inline c) u]
        | GIStrong c u => [GIStrong (flat_map replace_inline c) u]
        | GIStrikethrough c u => [GIStrikethrough (flat_map replace_inline c) u]
        | _ => [i]
        end
    end.
  Fixpoint replace_block (b : gblock T) : list (gblock T) :=
    match rep_block f b with
    | Some l => l
    | None =>
        match b with
        | GBParagraph c u => [GBParagraph (flat_map replace_inline c) u]
        | GBDefinition d =>
            [GBDefinition (GLinkDefinition (flat_map replace_inline (gld_label d)) (gld_destination d) (gld_title d) (gld_data d))]
        | GBBlockQuote bs u => [GBBlockQuote (flat_map replace_block bs) u]
        | GBHeading h => map GBHeading (rep_heading f h)
        | GBCodeBlock c => map GBCodeBlock (rep_code_block f c)
        | GBFootnoteDefinition d => map GBFootnoteDefinition (rep_footnote f d)
        | GBGitHubAlert a => map GBGitHubAlert (rep_alert f a)
        | GBList l => [GBList (GMkList (gll_kind l) (flat_map (rep_list_item f) (gll_items l)) (gll_data l))]
        | GBTable t => [GBTable (GTable (flat_map (rep_table_row f) (gt_rows t)) (gt_alignments t) (gt_data t))]
        | GBThematicBreak _ | GBHtmlBlock _ _ | GBEmpty _ => [b]
        end
    end.
  Definition replace_document (d : gdocument T) : gdocument T :=
    GDocument (flat_map replace_block (gd_blocks d)) (gd_data d).
End Replace.
Arguments replacers : clear implicits.

(** ** Implementations of the two traits used in the statements *)
(** The method that records the node it is called for, does its default work and
    then applies [f] to the node and the result. *)
Definition noting {E N A : Type} (e : N -> E) (f : N -> A -> A) (n : N) (w : M (list E) A) : M (list E) A :=
  fun s => let '(x, s') := w (s ++ [e n]) in (f n x, s').

Definition noting_transformer (f : rebuilders) : transformer (list event) :=
  Transformer (noting EDocument (on_document f)) (noting EBlock (on_block f))
    (fun i w _ => noting EInline (on_inline f) i w)
    (noting ETableCell (on_table_cell f)) (noting EListItem (on_list_item f)) (noting ETableRow (on_table_row f))
    (noting EHeading (on_heading f)) (noting ELink (on_link f)) (noting EImage (on_image f))
    (noting ECodeBlock (on_code_block f)) (noting EText (on_text f))
    (noting EFootnoteDefinition (on_footnote_definition f)) (noting EGitHubAlert (on_github_alert f))
    (fun _ w => w) (fun _ w => w) (fun _ w => w) (fun _ w => w) (default_expanders _).

Definition noting_gtransformer {T} (f : grebuilders T) : gtransformer (list (gevent T)) T :=
  GTransformer (noting GEDocument (gon_document f)) (noting GEBlock (gon_block f))
    (noting GEInline (gon_inline f))
    (noting GETableCell (gon_table_cell f)) (noting GEListItem (gon_list_item f)) (noting GETableRow (gon_table_row f))
    (noting GEHeading (gon_heading f)) (noting GELink (gon_link f)) (noting GEImage (gon_image f))
    (noting GECodeBlock (gon_code_block f))
    (noting GEFootnoteDefinition (gon_footnote_definition f)) (noting GEGitHubAlert (gon_github_alert f))
    (fun _ w => w) (fun _ w => w) (fun _ w => w) (fun _ w => w) (fun _ w => w) (fun _ w => w) (fun _ w => w)
    (fun _ w => w) (fun _ w => w) (fun _ w => w) (fun _ w => w) (fun _ w => w) (fun _ w => w) (fun _ w => w).

(** The nodes seen in a tree with user data are those of the tree without. *)
Definition strip_event {T} (e : gevent T) : event :=
  match e with
  | GEDocument d => EDocument (strip_data d)
  | GEBlock b => EBlock (strip_block b)
  | GEInline i => EInline (strip_inline i)
  | GETableCell c => ETableCell (map strip_inline c)
  | GEListItem it => EListItem (ListItem (gli_task it) (map strip_block (gli_blocks it)))
  | GETableRow r => ETableRow (map (map strip_inline) r)
  | GEHeading h => EHeading (Heading (gh_kind h) (map strip_inline (gh_content h)))
  | GELink l => ELink (Link (gl_destination l) (gl_title l) (map strip_inline (gl_children l)))
  | GEImage im => EImage (Image (gi_destination im) (gi_title im) (gi_alt im))
  | GECodeBlock c => ECodeBlock (CodeBlock (gcb_kind c) (gcb_literal c))
  | GEFootnoteDefinition f => EFootnoteDefinition (FootnoteDefinition (gfd_label f) (map strip_block (gfd_blocks f)))
  | GEGitHubAlert a => EGitHubAlert (GitHubAlert (gga_type a) (map strip_block (gga_blocks a)))
  end.
Definition is_text (e : event) : bool := match e with EText _ => true | _ => false end.
Definition quiet (l : list event) : list event := filter (fun e => negb (is_text e)) l.

Section Replacing.
  Context {S T : Type} (f : replacers T).
  (** The trait with its expansion methods replaced. *)
  Definition replacing : gtransformer S T :=
    GTransformer (fun _ w => w) (fun _ w => w) (fun _ w => w) (fun _ w => w) (fun _ w => w)
      (fun _ w => w) (fun _ w => w) (fun _ w => w) (fun _ w => w) (fun _ w => w) (fun _ w => w)
      (fun _ w => w) (fun _ w => w) (fun _ w => w) (fun _ w => w) (fun _ w => w)
      (fun x _ => ret (rep_heading f x)) (fun x _ => ret (rep_link f x)) (fun x _ => ret (rep_image f x))
      (fun x _ => ret (rep_code_block f x)) (fun x _ => ret (rep_list_item f x)) (fun x _ => ret (rep_table_row f x))
      (fun x _ => ret (rep_footnote f x)) (fun x _ => ret (rep_alert f x))
      (fun b w => match rep_block f b with Some l => ret l | None => w end)
      (fun i w => match rep_inline f i with Some l => ret l | None => w end).
End Replacing.
