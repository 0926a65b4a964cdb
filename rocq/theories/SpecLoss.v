(** What a document says (specification for C92). *)
From Coq Require Import String.
From Verif Require Export SpecBlock.
Import ListNotations.
Open Scope list_scope.

(** letters: the ASCII ones, and all characters beyond ASCII but whitespace *)
Definition letter (c : char) : bool := is_alpha c || ((128 <=? c)%N && negb (is_whitespace c)).
Definition letters (s : str) : str := filter letter s.
Definition optional (o : option str) : str := match o with Some s => s | None => [] end.

(** Everything there is to read in a document, in the order of its source: texts,
    code, HTML, destinations, titles, labels, info strings, names of alerts.  It
    is a relation because a document does not tell "[a][a]" from "[a]", nor in
    which case the name of an alert or the "x" of a task was written. *)
Inductive says_inline : inline -> str -> Prop :=
| says_text : forall s, says_inline (IText s) s
| says_break : says_inline ILineBreak []
| says_code : forall s, says_inline (ICode s) s
| says_html : forall s, says_inline (IHtml s) s
| says_link : forall d t c w, says_inlines c w -> says_inline (ILink (Link d t c)) (w ++ d ++ optional t)
| says_reference : forall label text v w, says_inlines text w -> says_inlines label v ->
    says_inline (ILinkReference (LinkReference label text)) (w ++ v)
| says_short : forall text w, says_inlines text w -> says_inline (ILinkReference (LinkReference text text)) w
| says_image : forall d t a, says_inline (IImage (Image d t a)) (a ++ d ++ optional t)
| says_emphasis : forall c w, says_inlines c w -> says_inline (IEmphasis c) w
| says_strong : forall c w, says_inlines c w -> says_inline (IStrong c) w
| says_strike : forall c w, says_inlines c w -> says_inline (IStrikethrough c) w
| says_autolink : forall s, says_inline (IAutolink s) s
| says_footnote : forall s, says_inline (IFootnoteReference s) s
| says_empty : says_inline IEmpty []
with says_inlines : list inline -> str -> Prop :=
| says_nil : says_inlines [] []
| says_cons : forall i l v w, says_inline i v -> says_inlines l w -> says_inlines (i :: l) (v ++ w).

Inductive says_task : option task_state -> str -> Prop :=
| says_no_task : says_task None []
| says_todo : says_task (Some Incomplete) []
| says_done : forall c, In c (lit "xX") -> says_task (Some Complete) [c].
Inductive says_cells : list (list inline) -> str -> Prop :=
| cells_nil : says_cells [] []
| cells_cons : forall c l v w, says_inlines c v -> says_cells l w -> says_cells (c :: l) (v ++ w).
(** a row after the first may have had more cells, unless cells were missing:
    [lost] is what was written in them *)
Inductive says_rows : list (list (list inline)) -> str -> Prop :=
| rows_nil : says_rows [] []
| rows_cons : forall c l v lost w, says_cells c v -> (In [IText []] c -> lost = []) -> says_rows l w ->
    says_rows (c :: l) (v ++ lost ++ w).

Section Says.
  Variable cfg : config.
  Inductive says_block : block -> str -> Prop :=
  | says_paragraph : forall l w, says_inlines l w -> says_block (BParagraph l) w
  | says_heading : forall k l w, says_inlines l w -> says_block (BHeading (Heading k l)) w
  | says_thematic : says_block BThematicBreak []
  | says_quote : forall bs w, says_blocks bs w -> says_block (BBlockQuote bs) w
  | says_list : forall k l w, says_items l w -> says_block (BList (MkList k l)) w
  | says_indented : forall s, says_block (BCodeBlock (CodeBlock Indented s)) s
  | says_fenced : forall i s, says_block (BCodeBlock (CodeBlock (Fenced i) s)) (optional i ++ s)
  | says_html_block : forall s, says_block (BHtmlBlock s) s
  | says_definition : forall label d t w, says_inlines label w ->
      says_block (BDefinition (LinkDefinition label d t)) (w ++ d ++ optional t)
  | says_table : forall h rows al v w, says_cells h v -> says_rows rows w -> says_block (BTable (Table (h :: rows) al)) (v ++ w)
  | says_footnote_def : forall label bs w, says_blocks bs w -> says_block (BFootnoteDefinition (FootnoteDefinition label bs)) (label ++ w)
  | says_alert : forall ty bs name n w, alert_of_name name ty -> upper_text cfg n = name -> says_blocks bs w ->
      says_block (BGitHubAlert (GitHubAlert ty bs)) (n ++ w)
  | says_void : says_block BEmpty []
  with says_items : list list_item -> str -> Prop :=
  | items_nil : says_items [] []
  | items_cons : forall t bs l u v w, says_task t u -> says_blocks bs v -> says_items l w ->
      says_items (ListItem t bs :: l) (u ++ v ++ w)
  with says_blocks : list block -> str -> Prop :=
  | blocks_nil : says_blocks [] []
  | blocks_cons : forall b l v w, says_block b v -> says_blocks l w -> says_blocks (b :: l) (v ++ w).
  Definition says (d : document) (w : str) : Prop := says_blocks (d_blocks d) w.

  (** every element is parsed or not looked for, no user code *)
  Definition keeps {A} (b : behavior A) : Prop := b = Parse \/ b = Ignore.
  Definition keeps_all : Prop :=
    Forall keeps
      [i_autolink cfg; i_link cfg; i_footnote_reference cfg; i_reference_link cfg;
       i_hard_newline cfg; i_image cfg; i_code_span cfg; i_emphasis cfg;
       i_strikethrough cfg; i_text cfg] /\
    Forall keeps
      [b_blockquote cfg; b_github_alert cfg; b_heading_v1 cfg; b_heading_v2 cfg;
       b_thematic_break cfg; b_list cfg; b_code_block cfg; b_html_block cfg;
       b_footnote_definition cfg; b_link_definition cfg; b_table cfg; b_paragraph cfg] /\
    custom_inline cfg = None /\ custom_block cfg = None.
  (** the upper case of a character beyond ASCII is not empty and holds no
      brackets or exclamation marks *)
  Definition sane_upper : Prop :=
    forall c, (128 <= c)%N -> upper_table cfg c <> [] /\ Forall (fun x => ~ In x (lit "[!]")) (upper_table cfg c).
End Says.
