(** The abstract syntax tree: /repo/src/ast/mod.rs and
    /repo/src/ast/github_alerts.rs.  Structs containing blocks or inlines are
    polymorphic records so that the two recursive types stay nested (not
    mutual) inductives. *)
From Verif Require Export Chars.

(** ast/mod.rs:105-122 [HeadingKind], [SetextHeading] *)
Inductive setext_heading := Level1 | Level2.
Inductive heading_kind := Atx (level : N) | Setext (l : setext_heading).

(** ast/mod.rs:143-193 [ListKind], [ListOrderedKindOptions], [ListBulletKind], [TaskState] *)
Inductive list_bullet_kind := Dash | Star | Plus.
Inductive list_kind := Ordered (start : N) | Bullet (k : list_bullet_kind).
Inductive task_state := Incomplete | Complete.

(** ast/mod.rs:202-223 [CodeBlock], [CodeBlockKind] *)
Inductive code_block_kind := Indented | Fenced (info : option str).
Record code_block := CodeBlock { cb_kind : code_block_kind; cb_literal : str }.

(** ast/mod.rs:267-280 [Alignment] *)
Inductive alignment := ANone | ALeft | ACenter | ARight.

(** ast/github_alerts.rs:1-17 *)
Inductive alert_type := Note | Tip | Important | Warning | Caution | Custom (name : str).

(** ast/mod.rs:346-380 [Link], [Image], [LinkReference] *)
Record link_ (I : Type) := Link {
  link_destination : str; link_title : option str; link_children : list I }.
Record image := Image {
  image_destination : str; image_title : option str; image_alt : str }.
Record link_reference_ (I : Type) := LinkReference {
  lr_label : list I; lr_text : list I }.
Arguments Link {I}. Arguments link_destination {I}. Arguments link_title {I}.
Arguments link_children {I}. Arguments LinkReference {I}. Arguments lr_label {I}.
Arguments lr_text {I}.

(** ast/mod.rs:304-341 [Inline] *)
Inductive inline : Type :=
| IText (s : str)
| ILineBreak
| ICode (s : str)
| IHtml (s : str)
| ILink (l : link_ inline)
| ILinkReference (l : link_reference_ inline)
| IImage (im : image)
| IEmphasis (c : list inline)
| IStrong (c : list inline)
| IStrikethrough (c : list inline)
| IAutolink (url : str)
| IFootnoteReference (label : str)
| IEmpty.

Notation link := (link_ inline).
Notation link_reference := (link_reference_ inline).

(** ast/mod.rs:94-100 [Heading], 231-240 [LinkDefinition], 250-262 [Table] *)
Record heading := Heading { h_kind : heading_kind; h_content : list inline }.
Record link_definition := LinkDefinition {
  ld_label : list inline; ld_destination : str; ld_title : option str }.
Definition table_cell := list inline.
Definition table_row := list table_cell.
Record table := Table { t_rows : list table_row; t_alignments : list alignment }.

(** ast/mod.rs:176-182 [ListItem], 131-137 [List], 289-295 [FootnoteDefinition];
    github_alerts.rs [GitHubAlert] *)
Record list_item_ (B : Type) := ListItem { li_task : option task_state; li_blocks : list B }.
Record list_ (B : Type) := MkList { l_kind : list_kind; l_items : list (list_item_ B) }.
Record footnote_definition_ (B : Type) := FootnoteDefinition {
  fd_label : str; fd_blocks : list B }.
Record github_alert_ (B : Type) := GitHubAlert {
  ga_type : alert_type; ga_blocks : list B }.
Arguments ListItem {B}. Arguments li_task {B}. Arguments li_blocks {B}.
Arguments MkList {B}. Arguments l_kind {B}. Arguments l_items {B}.
Arguments FootnoteDefinition {B}. Arguments fd_label {B}. Arguments fd_blocks {B}.
Arguments GitHubAlert {B}. Arguments ga_type {B}. Arguments ga_blocks {B}.

(** ast/mod.rs:53-88 [Block] *)
Inductive block : Type :=
| BParagraph (c : list inline)
| BHeading (h : heading)
| BThematicBreak
| BBlockQuote (bs : list block)
| BList (l : list_ block)
| BCodeBlock (c : code_block)
| BHtmlBlock (s : str)
| BDefinition (d : link_definition)
| BTable (t : table)
| BFootnoteDefinition (f : footnote_definition_ block)
| BGitHubAlert (a : github_alert_ block)
| BEmpty.

Notation list_item := (list_item_ block).
Notation mdlist := (list_ block).
Notation footnote_definition := (footnote_definition_ block).
Notation github_alert := (github_alert_ block).

(** ast/mod.rs:41-44 [Document] *)
Record document := Document { d_blocks : list block }.

(** ** Induction principles (every child satisfies the predicate) *)
Section InlineInd.
  Variable P : inline -> Prop.
  Hypothesis HText : forall s, P (IText s).
  Hypothesis HLineBreak : P ILineBreak.
  Hypothesis HCode : forall s, P (ICode s).
  Hypothesis HHtml : forall s, P (IHtml s).
  Hypothesis HLink : forall d t c, Forall P c -> P (ILink (Link d t c)).
  Hypothesis HLinkReference : forall l t, Forall P l -> Forall P t ->
      P (ILinkReference (LinkReference l t)).
  Hypothesis HImage : forall im, P (IImage im).
  Hypothesis HEmphasis : forall c, Forall P c -> P (IEmphasis c).
  Hypothesis HStrong : forall c, Forall P c -> P (IStrong c).
  Hypothesis HStrikethrough : forall c, Forall P c -> P (IStrikethrough c).
  Hypothesis HAutolink : forall s, P (IAutolink s).
  Hypothesis HFootnoteReference : forall s, P (IFootnoteReference s).
  Hypothesis HEmpty : P IEmpty.

  Fixpoint inline_ind' (i : inline) : P i :=
    let go := fix go (l : list inline) : Forall P l :=
      match l with
      | [] => Forall_nil P
      | x :: l' => Forall_cons x (inline_ind' x) (go l')
      end in
    match i with
    | IText s => HText s
    | ILineBreak => HLineBreak
    | ICode s => HCode s
    | IHtml s => HHtml s
    | ILink (Link d t c) => HLink d t c (go c)
    | ILinkReference (LinkReference l t) => HLinkReference l t (go l) (go t)
    | IImage im => HImage im
    | IEmphasis c => HEmphasis c (go c)
    | IStrong c => HStrong c (go c)
    | IStrikethrough c => HStrikethrough c (go c)
    | IAutolink s => HAutolink s
    | IFootnoteReference s => HFootnoteReference s
    | IEmpty => HEmpty
    end.
End InlineInd.

Section BlockInd.
  Variable P : block -> Prop.
  Hypothesis HParagraph : forall c, P (BParagraph c).
  Hypothesis HHeading : forall h, P (BHeading h).
  Hypothesis HThematicBreak : P BThematicBreak.
  Hypothesis HBlockQuote : forall bs, Forall P bs -> P (BBlockQuote bs).
  Hypothesis HList : forall k items,
      Forall (fun it => Forall P (li_blocks it)) items -> P (BList (MkList k items)).
  Hypothesis HCodeBlock : forall c, P (BCodeBlock c).
  Hypothesis HHtmlBlock : forall s, P (BHtmlBlock s).
  Hypothesis HDefinition : forall d, P (BDefinition d).
  Hypothesis HTable : forall t, P (BTable t).
  Hypothesis HFootnoteDefinition : forall l bs, Forall P bs ->
      P (BFootnoteDefinition (FootnoteDefinition l bs)).
  Hypothesis HGitHubAlert : forall t bs, Forall P bs -> P (BGitHubAlert (GitHubAlert t bs)).
  Hypothesis HEmpty : P BEmpty.

  Fixpoint block_ind' (b : block) : P b :=
    let go := fix go (l : list block) : Forall P l :=
      match l with
      | [] => Forall_nil P
      | x :: l' => Forall_cons x (block_ind' x) (go l')
      end in
    let go_items := fix go_items (l : list list_item) :
          Forall (fun it => Forall P (li_blocks it)) l :=
      match l with
      | [] => Forall_nil _
      | ListItem t bs :: l' =>
          Forall_cons (P := fun it => Forall P (li_blocks it)) (ListItem t bs) (go bs) (go_items l')
      end in
    match b with
    | BParagraph c => HParagraph c
    | BHeading h => HHeading h
    | BThematicBreak => HThematicBreak
    | BBlockQuote bs => HBlockQuote bs (go bs)
    | BList (MkList k items) => HList k items (go_items items)
    | BCodeBlock c => HCodeBlock c
    | BHtmlBlock s => HHtmlBlock s
    | BDefinition d => HDefinition d
    | BTable t => HTable t
    | BFootnoteDefinition (FootnoteDefinition l bs) => HFootnoteDefinition l bs (go bs)
    | BGitHubAlert (GitHubAlert t bs) => HGitHubAlert t bs (go bs)
    | BEmpty => HEmpty
    end.
End BlockInd.
