(** The AST with user data: /repo/src/ast/generic.rs, the conversions of
    /repo/src/ast/convert.rs, the data mapper of
    /repo/src/ast/map_data_visitor.rs and the element ids of
    /repo/src/ast_specialized. *)
From Verif Require Export Ast.

(** generic.rs:160-165 [ListKind] (a separate enum) *)
Inductive glist_kind := GOrdered (start : N) | GBullet (k : list_bullet_kind).

(** generic.rs:377-423 [Link], [Image], [LinkReference] *)
Record glink_ (I T : Type) := GLink {
  gl_destination : str; gl_title : option str; gl_children : list I; gl_data : T }.
Record gimage (T : Type) := GImage {
  gi_destination : str; gi_title : option str; gi_alt : str; gi_data : T }.
Record glink_reference_ (I T : Type) := GLinkReference {
  glr_label : list I; glr_text : list I; glr_data : T }.
Arguments GLink {I T}. Arguments gl_destination {I T}. Arguments gl_title {I T}.
Arguments gl_children {I T}. Arguments gl_data {I T}.
Arguments GImage {T}. Arguments gi_destination {T}. Arguments gi_title {T}.
Arguments gi_alt {T}. Arguments gi_data {T}.
Arguments GLinkReference {I T}. Arguments glr_label {I T}. Arguments glr_text {I T}.
Arguments glr_data {I T}.

(** generic.rs:295-374 [Inline<T>] *)
Inductive ginline (T : Type) : Type :=
| GIText (s : str) (d : T)
| GILineBreak (d : T)
| GICode (s : str) (d : T)
| GIHtml (s : str) (d : T)
| GILink (l : glink_ (ginline T) T)
| GILinkReference (l : glink_reference_ (ginline T) T)
| GIImage (im : gimage T)
| GIEmphasis (c : list (ginline T)) (d : T)
| GIStrong (c : list (ginline T)) (d : T)
| GIStrikethrough (c : list (ginline T)) (d : T)
| GIAutolink (url : str) (d : T)
| GIFootnoteReference (label : str) (d : T)
| GIEmpty (d : T).
Arguments GIText {T}. Arguments GILineBreak {T}. Arguments GICode {T}. Arguments GIHtml {T}.
Arguments GILink {T}. Arguments GILinkReference {T}. Arguments GIImage {T}.
Arguments GIEmphasis {T}. Arguments GIStrong {T}. Arguments GIStrikethrough {T}.
Arguments GIAutolink {T}. Arguments GIFootnoteReference {T}. Arguments GIEmpty {T}.

(** generic.rs:125-137 [Heading], 190-200 [CodeBlock], 209-222 [LinkDefinition], 232-248 [Table] *)
Record gheading (T : Type) := GHeading {
  gh_kind : heading_kind; gh_content : list (ginline T); gh_data : T }.
Record gcode_block (T : Type) := GCodeBlock {
  gcb_kind : code_block_kind; gcb_literal : str; gcb_data : T }.
Record glink_definition (T : Type) := GLinkDefinition {
  gld_label : list (ginline T); gld_destination : str; gld_title : option str; gld_data : T }.
Record gtable (T : Type) := GTable {
  gt_rows : list (list (list (ginline T))); gt_alignments : list alignment; gt_data : T }.
(** generic.rs:171-181 [ListItem], 144-154 [List], 257-267 [FootnoteDefinition],
    276-286 [GitHubAlertNode] *)
Record glist_item_ (B T : Type) := GListItem {
  gli_task : option task_state; gli_blocks : list B; gli_data : T }.
Record glist_ (B T : Type) := GMkList {
  gll_kind : glist_kind; gll_items : list (glist_item_ B T); gll_data : T }.
Record gfootnote_definition_ (B T : Type) := GFootnoteDefinition {
  gfd_label : str; gfd_blocks : list B; gfd_data : T }.
Record ggithub_alert_ (B T : Type) := GGitHubAlert {
  gga_type : alert_type; gga_blocks : list B; gga_data : T }.
Arguments GHeading {T}. Arguments gh_kind {T}. Arguments gh_content {T}. Arguments gh_data {T}.
Arguments GCodeBlock {T}. Arguments gcb_kind {T}. Arguments gcb_literal {T}. Arguments gcb_data {T}.
Arguments GLinkDefinition {T}. Arguments gld_label {T}. Arguments gld_destination {T}.
Arguments gld_title {T}. Arguments gld_data {T}.
Arguments GTable {T}. Arguments gt_rows {T}. Arguments gt_alignments {T}. Arguments gt_data {T}.
Arguments GListItem {B T}. Arguments gli_task {B T}. Arguments gli_blocks {B T}. Arguments gli_data {B T}.
Arguments GMkList {B T}. Arguments gll_kind {B T}. Arguments gll_items {B T}. Arguments gll_data {B T}.
Arguments GFootnoteDefinition {B T}. Arguments gfd_label {B T}. Arguments gfd_blocks {B T}. Arguments gfd_data {B T}.
Arguments GGitHubAlert {B T}. Arguments gga_type {B T}. Arguments gga_blocks {B T}. Arguments gga_data {B T}.

(** generic.rs:66-119 [Block<T>] *)
Inductive gblock (T : Type) : Type :=
| GBParagraph (c : list (ginline T)) (d : T)
| GBHeading (h : gheading T)
| GBThematicBreak (d : T)
| GBBlockQuote (bs : list (gblock T)) (d : T)
| GBList (l : glist_ (gblock T) T)
| GBCodeBlock (c : gcode_block T)
| GBHtmlBlock (s : str) (d : T)
| GBDefinition (ld : glink_definition T)
| GBTable (t : gtable T)
| GBFootnoteDefinition (f : gfootnote_definition_ (gblock T) T)
| GBGitHubAlert (a : ggithub_alert_ (gblock T) T)
| GBEmpty (d : T).
Arguments GBParagraph {T}. Arguments GBHeading {T}. Arguments GBThematicBreak {T}.
Arguments GBBlockQuote {T}. Arguments GBList {T}. Arguments GBCodeBlock {T}.
Arguments GBHtmlBlock {T}. Arguments GBDefinition {T}. Arguments GBTable {T}.
Arguments GBFootnoteDefinition {T}. Arguments GBGitHubAlert {T}. Arguments GBEmpty {T}.

(** generic.rs:50-57 [Document<T>] *)
Record gdocument (T : Type) := GDocument { gd_blocks : list (gblock T); gd_data : T }.
Arguments GDocument {T}. Arguments gd_blocks {T}. Arguments gd_data {T}.

Notation glink T := (glink_ (ginline T) T).
Notation glink_reference T := (glink_reference_ (ginline T) T).
Notation glist_item T := (glist_item_ (gblock T) T).
Notation glist T := (glist_ (gblock T) T).
Notation gfootnote_definition T := (gfootnote_definition_ (gblock T) T).
Notation ggithub_alert T := (ggithub_alert_ (gblock T) T).

(** ** Conversions *)

(** convert.rs:847-863 *)
Definition to_glist_kind (k : list_kind) : glist_kind :=
  match k with Ordered s => GOrdered s | Bullet b => GBullet b end.
Definition from_glist_kind (k : glist_kind) : list_kind :=
  match k with GOrdered s => Ordered s | GBullet b => Bullet b end.

Section WithData.
  Context {T : Type} (dflt : T).   (* [T::default()] *)

  (** convert.rs:108-163 (Inline), 298-344 (Link, Image, LinkReference) *)
  Fixpoint with_data_inline (i : inline) (data : T) : ginline T :=
    let kids := map (fun x => with_data_inline x dflt) in
    match i with
    | IText s => GIText s data
    | ILineBreak => GILineBreak data
    | ICode s => GICode s data
    | IHtml s => GIHtml s data
    | ILink l => GILink (GLink (link_destination l) (link_title l) (kids (link_children l)) data)
    | ILinkReference l => GILinkReference (GLinkReference (kids (lr_label l)) (kids (lr_text l)) data)
    | IImage im => GIImage (GImage (image_destination im) (image_title im) (image_alt im) data)
    | IEmphasis c => GIEmphasis (kids c) data
    | IStrong c => GIStrong (kids c) data
    | IStrikethrough c => GIStrikethrough (kids c) data
    | IAutolink u => GIAutolink u data
    | IFootnoteReference l => GIFootnoteReference l data
    | IEmpty => GIEmpty data
    end.
  Definition with_data_inlines (l : list inline) : list (ginline T) :=
    map (fun x => with_data_inline x dflt) l.

  (** convert.rs:70-106 (Block), 165-296 (Heading .. GitHubAlert) *)
  Fixpoint with_data_block (b : block) (data : T) : gblock T :=
    let kids := map (fun x => with_data_block x dflt) in
    match b with
    | BParagraph c => GBParagraph (with_data_inlines c) data
    | BHeading h => GBHeading (GHeading (h_kind h) (with_data_inlines (h_content h)) data)
    | BThematicBreak => GBThematicBreak data
    | BBlockQuote bs => GBBlockQuote (kids bs) data
    | BList l => GBList (GMkList (to_glist_kind (l_kind l))
                   (map (fun it => GListItem (li_task it) (kids (li_blocks it)) dflt) (l_items l)) data)
    | BCodeBlock c => GBCodeBlock (GCodeBlock (cb_kind c) (cb_literal c) data)
    | BHtmlBlock s => GBHtmlBlock s data
    | BDefinition d => GBDefinition (GLinkDefinition (with_data_inlines (ld_label d))
                                       (ld_destination d) (ld_title d) data)
    | BTable t => GBTable (GTable (map (map with_data_inlines) (t_rows t)) (t_alignments t) data)
    | BFootnoteDefinition f => GBFootnoteDefinition (GFootnoteDefinition (fd_label f) (kids (fd_blocks f)) data)
    | BGitHubAlert a => GBGitHubAlert (GGitHubAlert (ga_type a) (kids (ga_blocks a)) data)
    | BEmpty => GBEmpty data
    end.

  (** convert.rs:55-68 (Document) *)
  Definition with_data (d : document) (data : T) : gdocument T :=
    GDocument (map (fun b => with_data_block b dflt) (d_blocks d)) data.
  (** convert.rs:23-28 *)
  Definition with_default_data (d : document) : gdocument T := with_data d dflt.
End WithData.

Section Strip.
  Context {T : Type}.
  (** convert.rs:389-417 (Inline), 516-549 (Link, Image, LinkReference) *)
  Fixpoint strip_inline (i : ginline T) : inline :=
    match i with
    | GIText s _ => IText s
    | GILineBreak _ => ILineBreak
    | GICode s _ => ICode s
    | GIHtml s _ => IHtml s
    | GILink l => ILink (Link (gl_destination l) (gl_title l) (map strip_inline (gl_children l)))
    | GILinkReference l =>
        ILinkReference (LinkReference (map strip_inline (glr_label l)) (map strip_inline (glr_text l)))
    | GIImage im => IImage (Image (gi_destination im) (gi_title im) (gi_alt im))
    | GIEmphasis c _ => IEmphasis (map strip_inline c)
    | GIStrong c _ => IStrong (map strip_inline c)
    | GIStrikethrough c _ => IStrikethrough (map strip_inline c)
    | GIAutolink u _ => IAutolink u
    | GIFootnoteReference l _ => IFootnoteReference l
    | GIEmpty _ => IEmpty
    end.
  (** convert.rs:362-387 (Block), 419-514 *)
  Fixpoint strip_block (b : gblock T) : block :=
    match b with
    | GBParagraph c _ => BParagraph (map strip_inline c)
    | GBHeading h => BHeading (Heading (gh_kind h) (map strip_inline (gh_content h)))
    | GBThematicBreak _ => BThematicBreak
    | GBBlockQuote bs _ => BBlockQuote (map strip_block bs)
    | GBList l => BList (MkList (from_glist_kind (gll_kind l))
                    (map (fun it => ListItem (gli_task it) (map strip_block (gli_blocks it))) (gll_items l)))
    | GBCodeBlock c => BCodeBlock (CodeBlock (gcb_kind c) (gcb_literal c))
    | GBHtmlBlock s _ => BHtmlBlock s
    | GBDefinition d => BDefinition (LinkDefinition (map strip_inline (gld_label d))
                                       (gld_destination d) (gld_title d))
    | GBTable t => BTable (Table (map (map (map strip_inline)) (gt_rows t)) (gt_alignments t))
    | GBFootnoteDefinition f => BFootnoteDefinition (FootnoteDefinition (gfd_label f) (map strip_block (gfd_blocks f)))
    | GBGitHubAlert a => BGitHubAlert (GitHubAlert (gga_type a) (map strip_block (gga_blocks a)))
    | GBEmpty _ => BEmpty
    end.
  (** convert.rs:352-360 *)
  Definition strip_data (d : gdocument T) : document := Document (map strip_block (gd_blocks d)).
End Strip.

(** convert.rs:836-844 *)
Definition to_generic (d : document) : gdocument unit := with_default_data tt d.
Definition from_generic (d : gdocument unit) : document := strip_data d.

(** ** map_data_visitor.rs: a stateful closure that may panic ([None]). *)
Definition PM (S A : Type) := S -> option (A * S).
Definition pret {S A} (a : A) : PM S A := fun s => Some (a, s).
Definition pbind {S A B} (m : PM S A) (f : A -> PM S B) : PM S B :=
  fun s => match m s with Some (a, s') => f a s' | None => None end.
Section PMapM.
  Context {S A B : Type} (f : A -> PM S B).
  Fixpoint pmapM (l : list A) : PM S (list B) :=
    match l with
    | [] => pret []
    | x :: l' => pbind (f x) (fun y => pbind (pmapM l') (fun ys => pret (y :: ys)))
    end.
End PMapM.

Section MapData.
  Context {S T U : Type} (f : T -> PM S U).   (* [self.map_data] *)
  Local Notation "x <~ m ;; k" := (pbind m (fun x => k))
    (at level 61, m at next level, right associativity).

  (** map_data_visitor.rs:67-117 [visit_inline], 234-278 [visit_link],
      [visit_image], [visit_link_reference].  Struct-literal fields are
      evaluated in written order: children first, then [user_data]. *)
  Fixpoint md_inline (i : ginline T) : PM S (ginline U) :=
    let kids := pmapM md_inline in
    match i with
    | GIText s d => d' <~ f d ;; pret (GIText s d')
    | GILineBreak d => d' <~ f d ;; pret (GILineBreak d')
    | GICode s d => d' <~ f d ;; pret (GICode s d')
    | GIHtml s d => d' <~ f d ;; pret (GIHtml s d')
    | GILink l =>
        c <~ kids (gl_children l) ;; d <~ f (gl_data l) ;;
        pret (GILink (GLink (gl_destination l) (gl_title l) c d))
    | GILinkReference l =>
        lb <~ kids (glr_label l) ;; tx <~ kids (glr_text l) ;; d <~ f (glr_data l) ;;
        pret (GILinkReference (GLinkReference lb tx d))
    | GIImage im =>
        d <~ f (gi_data im) ;;
        pret (GIImage (GImage (gi_destination im) (gi_title im) (gi_alt im) d))
    | GIEmphasis c d => c' <~ kids c ;; d' <~ f d ;; pret (GIEmphasis c' d')
    | GIStrong c d => c' <~ kids c ;; d' <~ f d ;; pret (GIStrong c' d')
    | GIStrikethrough c d => c' <~ kids c ;; d' <~ f d ;; pret (GIStrikethrough c' d')
    | GIAutolink u d => d' <~ f d ;; pret (GIAutolink u d')
    | GIFootnoteReference l d => d' <~ f d ;; pret (GIFootnoteReference l d')
    | GIEmpty d => d' <~ f d ;; pret (GIEmpty d')
    end.

  (** map_data_visitor.rs:26-64 [visit_block], 120-231 *)
  Fixpoint md_block (b : gblock T) : PM S (gblock U) :=
    let kids := pmapM md_block in
    match b with
    | GBParagraph c d => c' <~ pmapM md_inline c ;; d' <~ f d ;; pret (GBParagraph c' d')
    | GBHeading h =>
        c <~ pmapM md_inline (gh_content h) ;; d <~ f (gh_data h) ;;
        pret (GBHeading (GHeading (gh_kind h) c d))
    | GBThematicBreak d => d' <~ f d ;; pret (GBThematicBreak d')
    | GBBlockQuote bs d => bs' <~ kids bs ;; d' <~ f d ;; pret (GBBlockQuote bs' d')
    | GBList l =>
        items <~ pmapM (fun it => bs <~ kids (gli_blocks it) ;; d <~ f (gli_data it) ;;
                                  pret (GListItem (gli_task it) bs d)) (gll_items l) ;;
        d <~ f (gll_data l) ;;
        pret (GBList (GMkList (gll_kind l) items d))
    | GBCodeBlock c => d <~ f (gcb_data c) ;; pret (GBCodeBlock (GCodeBlock (gcb_kind c) (gcb_literal c) d))
    | GBHtmlBlock s d => d' <~ f d ;; pret (GBHtmlBlock s d')
    | GBDefinition ld =>
        lb <~ pmapM md_inline (gld_label ld) ;; d <~ f (gld_data ld) ;;
        pret (GBDefinition (GLinkDefinition lb (gld_destination ld) (gld_title ld) d))
    | GBTable t =>
        rows <~ pmapM (pmapM (pmapM md_inline)) (gt_rows t) ;; d <~ f (gt_data t) ;;
        pret (GBTable (GTable rows (gt_alignments t) d))
    | GBFootnoteDefinition fd =>
        bs <~ kids (gfd_blocks fd) ;; d <~ f (gfd_data fd) ;;
        pret (GBFootnoteDefinition (GFootnoteDefinition (gfd_label fd) bs d))
    | GBGitHubAlert a =>
        bs <~ kids (gga_blocks a) ;; d <~ f (gga_data a) ;;
        pret (GBGitHubAlert (GGitHubAlert (gga_type a) bs d))
    | GBEmpty d => d' <~ f d ;; pret (GBEmpty d')
    end.

  (** map_data_visitor.rs:14-23 [visit_document]; 309-315 [map_user_data] *)
  Definition md_document (doc : gdocument T) : PM S (gdocument U) :=
    bs <~ pmapM md_block (gd_blocks doc) ;; d <~ f (gd_data doc) ;; pret (GDocument bs d).
End MapData.

(** [map_user_data] with a closure that neither keeps state nor panics. *)
Definition pure_closure {T U} (f : T -> U) : T -> PM unit U := fun t => pret (f t).
Definition map_user_data {T U} (f : T -> U) (doc : gdocument T) : option (gdocument U) :=
  option_map fst (md_document (pure_closure f) doc tt).

(** ** ast_specialized: element ids *)
(** element_id.rs:72-76 [IdGenerator::generate]; the increment panics on
    overflow (debug profile); the panic happens after the id was read. *)
Definition generate {T} (_ : T) : PM N N :=
  fun next_id => if (next_id <? u64_max)%N then Some (next_id, (next_id + 1)%N) else None.
(** utilities.rs:46-50 [add_ids_from] *)
Definition add_ids_from (doc : document) (start : N) : option (gdocument N) :=
  option_map fst (md_document generate (with_default_data tt doc) start).
(** utilities.rs:39-43, element_id.rs:62-64 *)
Definition add_ids_to_document (doc : document) : option (gdocument N) := add_ids_from doc 1%N.
(** utilities.rs:84-87 [add_ids_to_generic_document] *)
Definition add_ids_to_generic_document {T} (doc : gdocument T) : option (gdocument N) :=
  option_map fst (md_document generate doc 1%N).
