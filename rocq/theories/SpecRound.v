(** Specification for C41 and C56: the documents that survive printing and
    parsing, and equality up to re-wrapping. *)
From Coq Require Import String.
From Verif Require SpecBlock.
From Verif Require Export SpecAst SpecParser SpecInline SpecMd.
Import ListNotations.
Open Scope list_scope.

(** ** Equality up to re-wrapping: line breaks in texts count as spaces *)
Definition unwrap_text (t : str) : str := map (fun c => if N.eqb c c_nl then c_sp else c) t.
Fixpoint unwrap_inline (i : inline) : inline :=
  match i with
  | IText t => IText (unwrap_text t)
  | ILink (Link d t c) => ILink (Link d t (map unwrap_inline c))
  | ILinkReference (LinkReference l t) => ILinkReference (LinkReference (map unwrap_inline l) (map unwrap_inline t))
  | IEmphasis c => IEmphasis (map unwrap_inline c)
  | IStrong c => IStrong (map unwrap_inline c)
  | IStrikethrough c => IStrikethrough (map unwrap_inline c)
  | ICode s => ICode s
  | ILineBreak => ILineBreak
  | IHtml s => IHtml s
  | IImage im => IImage im
  | IAutolink s => IAutolink s
  | IFootnoteReference s => IFootnoteReference s
  | IEmpty => IEmpty
  end.
Definition unwrap_inlines (l : list inline) : list inline := map unwrap_inline l.
Fixpoint unwrap_block (b : block) : block :=
  match b with
  | BParagraph c => BParagraph (unwrap_inlines c)
  | BHeading (Heading k c) => BHeading (Heading k (unwrap_inlines c))
  | BBlockQuote bs => BBlockQuote (map unwrap_block bs)
  | BList (MkList k items) =>
      BList (MkList k (map (fun it => ListItem (li_task it) (map unwrap_block (li_blocks it))) items))
  | BDefinition (LinkDefinition l d t) => BDefinition (LinkDefinition (unwrap_inlines l) d t)
  | BTable (Table rows al) => BTable (Table (map (map unwrap_inlines) rows) al)
  | BFootnoteDefinition (FootnoteDefinition l bs) => BFootnoteDefinition (FootnoteDefinition l (map unwrap_block bs))
  | BGitHubAlert (GitHubAlert t bs) => BGitHubAlert (GitHubAlert t (map unwrap_block bs))
  | BThematicBreak => BThematicBreak
  | BCodeBlock c => BCodeBlock c
  | BHtmlBlock s => BHtmlBlock s
  | BEmpty => BEmpty
  end.
Definition unwrap (d : document) : document := Document (map unwrap_block (d_blocks d)).

(** ** Words of prose *)
(** no whitespace, no character of the inline syntax *)
Definition word (w : str) : Prop := w <> [] /\ Forall (fun c => plain_char c /\ is_whitespace c = false) w.
(** a word that begins no block when it begins a line *)
Definition opens_line (w : str) : Prop :=
  (forall c t, In c (lit ">|") -> w <> c :: t) /\
  (forall c n, In c (lit "#=-") -> w <> repeat c n) /\ w <> lit "+" /\
  (forall ds c, ds <> [] -> Forall (fun d => is_digit d = true) ds -> In c (lit ".)") -> w <> ds ++ [c]).

(** ** Lines *)
Fixpoint split_lines (s : str) : list str :=
  match s with
  | [] => [[]]
  | c :: s' =>
      if N.eqb c c_nl then [] :: split_lines s'
      else match split_lines s' with l :: ls => (c :: l) :: ls | [] => [[c]] end
  end.
(** a line that closes a fence of [n] times [c] *)
Definition closes_fence (c : char) (n : nat) (l : str) : Prop :=
  exists a m, a <= 3 /\ n <= m /\ l = rep a c_sp ++ rep m c.

(** ** Texts *)
Definition last_is (c : char) (s : str) : Prop := exists t, s = t ++ [c].
(** a text: no character of the inline syntax; spaces or line breaks, one at a
    time, between the words *)
Definition plain_words (t : str) : Prop :=
  t <> [] /\ Forall plain_char t /\ (forall c, In c t -> is_whitespace c = true -> c = c_sp \/ c = c_nl) /\
  (forall a b x y, t = a ++ x :: y :: b -> is_whitespace x = true -> is_whitespace y = false).
(** ... such that wrapping cannot put syntax at the beginning of a line: every
    word behind a blank opens a line or is known to the printer as unsafe *)
Definition wraps_safely (udigit : char -> bool) (t : str) : Prop :=
  forall a w b, tokens t = a ++ None :: Some w :: b -> opens_line w \/ unsafe_word udigit w.

(** characters of a line *)
Definition one_liner (l : str) : Prop := ~ In c_nl l /\ ~ In c_cr l.
Definition first_not (c : char) (l : str) : Prop := forall t, l <> c :: t.
(** the info string and the content of a fenced block *)
Definition fence_info (info : option str) : Prop :=
  match info with Some i => i <> [] /\ one_liner i /\ first_not (ch "`") i | None => True end.
Definition fence_content (s : str) : Prop :=
  ~ In c_cr s /\ Forall (fun l => ~ closes_fence (ch "`") 3 l) (split_lines s).
(** the content of an indented block: the first line is not blank, the last one
    not empty *)
Definition indented_content (s : str) : Prop :=
  ~ In c_cr s /\ (exists k c t, s = rep k c_sp ++ c :: t /\ is_whitespace c = false) /\ (forall t, s <> t ++ [c_nl]).
(** ** Inlines *)
(** the source of inlines, texts as they are *)
Definition title_source (t : option str) : str := match t with Some t => quoted_title t | None => [] end.
Fixpoint source_of (i : inline) : str :=
  let sources l := flat_map source_of l in
  match i with
  | IText t => t
  | ILineBreak => lit "  " ++ [c_nl]
  | ICode s => lit "`" ++ s ++ lit "`"
  | IHtml s => s
  | IEmphasis c => lit "*" ++ sources c ++ lit "*"
  | IStrong c => lit "**" ++ sources c ++ lit "**"
  | IStrikethrough c => lit "~~" ++ sources c ++ lit "~~"
  | ILink (Link d t c) => lit "[" ++ sources c ++ lit "](" ++ d ++ title_source t ++ lit ")"
  | IImage (Image d t a) => lit "![" ++ a ++ lit "](" ++ d ++ title_source t ++ lit ")"
  | IAutolink u => lit "<" ++ u ++ lit ">"
  | IFootnoteReference l => lit "[^" ++ l ++ lit "]"
  | IEmpty => []
  | ILinkReference (LinkReference l t) =>
      if list_eqb inline_eqb l t then lit "[" ++ sources t ++ lit "]"
      else lit "[" ++ sources t ++ lit "][" ++ sources l ++ lit "]"
  end.
Definition source (l : list inline) : str := flat_map source_of l.

(** no blank at either end *)
Definition tight (s : str) : Prop :=
  (exists c t, s = c :: t /\ is_whitespace c = false) /\ (exists t c, s = t ++ [c] /\ is_whitespace c = false).
(** a delimiter run can close before [s] *)
Definition run_may_close (s : str) : Prop := forall c, begins_with c s -> is_whitespace c = true \/ is_ascii_punct c = true.
(** a text that can stand in brackets *)
Definition in_brackets (s : str) : Prop := tight s /\ ~ In (ch "]") s /\ ~ In (ch "\") s /\ List.length s < 1000.
Definition plain_target (d : str) (t : option str) : Prop :=
  d <> [] /\ bare_text d /\ one_liner d /\
  match t with Some t => one_liner t /\ ~ In 34%N t /\ ~ In (ch "\") t | None => True end.
Definition plain_code (s : str) : Prop :=
  s <> [] /\ one_liner s /\ ~ In (ch "`") s /\
  ~ (exists u, s = c_sp :: u ++ [c_sp] /\ Exists (fun c => is_whitespace c = false) u).
(** "[x]" and a blank: read as a task when it follows a list marker *)
Definition task_like (s : str) : Prop := exists x b t, s = ch "[" :: x :: ch "]" :: b :: t /\ is_whitespace b = true.
(** what may begin a line *)
Definition opens_paragraph (l : list inline) : Prop :=
  match l with
  | [] => False
  | IText t :: _ => exists w b, tokens t = Some w :: b /\ opens_line w
  | ILineBreak :: _ => False
  | _ => True
  end.

(** Inlines the parser reads back from their source. *)
Inductive rich : list inline -> Prop :=
| rich_nil : rich []
| rich_text : forall t l, plain_words t -> rich l ->
    (forall t' l', l <> IText t' :: l') ->
    (last_is (ch "!") t -> ~ begins_with (ch "[") (source l)) ->
    (forall c, last_is c t -> is_whitespace c = true -> forall l', l <> ILineBreak :: l') ->
    rich (IText t :: l)
| rich_break : forall l, rich l -> opens_paragraph l -> rich (ILineBreak :: l)
| rich_code : forall s l, plain_code s -> rich l -> ~ begins_with (ch "`") (source l) -> rich (ICode s :: l)
| rich_emphasis : forall c l, rich c -> tight (source c) -> ~ In (ch "*") (source c) -> ~ task_like (source c) ->
    rich l -> run_may_close (source l) -> rich (IEmphasis c :: l)
| rich_strong : forall c l, rich c -> tight (source c) ->
    (forall a b, lit "*" ++ source c ++ lit "*" <> a ++ lit "**" ++ b) ->
    rich l -> run_may_close (source l) -> rich (IStrong c :: l)
| rich_both : forall c l, rich c -> tight (source c) -> ~ In (ch "*") (source c) ->
    rich l -> run_may_close (source l) -> rich (IStrong [IEmphasis c] :: l)
| rich_strike : forall c l, rich c -> tight (source c) -> ~ In (ch "~") (source c) ->
    rich l -> ~ begins_with (ch "~") (source l) -> rich (IStrikethrough c :: l)
| rich_link : forall d t c l, rich c -> in_brackets (source c) -> plain_target d t -> rich l -> rich (ILink (Link d t c) :: l)
| rich_image : forall d t a l, one_liner a -> ~ In (ch "]") a -> plain_target d t -> rich l -> rich (IImage (Image d t a) :: l)
| rich_autolink : forall u l, uri u \/ email u -> rich l -> rich (IAutolink u :: l)
| rich_footnote : forall n l, n <> [] -> all is_alnum n -> rich l ->
    (forall c, In c (lit "(:") -> ~ begins_with c (source l)) -> rich (IFootnoteReference n :: l)
| rich_shortcut : forall c l, rich c -> in_brackets (source c) -> ~ begins_with (ch "^") (source c) -> rich l ->
    (forall c, In c (lit "([:") -> ~ begins_with c (source l)) -> rich (ILinkReference (LinkReference c c) :: l)
| rich_reference : forall n c l, rich n -> in_brackets (source n) -> rich c -> in_brackets (source c) ->
    ~ begins_with (ch "^") (source c) -> unwrap_inlines n <> unwrap_inlines c -> rich l ->
    rich (ILinkReference (LinkReference n c) :: l).
(** every text in them may be wrapped *)
Definition wrappable (udigit : char -> bool) (l : list inline) : Prop :=
  forall t, In (IText t) (flat_map inline_preorder l) -> wraps_safely udigit t.

(** ** Blocks *)
(** where a block stands: in the document itself, in a quote, in an alert, or in a
    list item whose content is indented by [n] *)
Inductive place := Top | Quote | Alert | Item (n : nat).
(** spaces the parser sees in front of the blocks there (it keeps the one behind
    ">"), and on the line between two blocks *)
Definition margin (p : place) : nat := match p with Quote | Alert => 1 | _ => 0 end.
Definition between_blocks (p : place) : nat := match p with Top | Alert => 0 | Quote => 1 | Item n => n end.
Definition in_item (p : place) : Prop := exists n, p = Item n.
(** the content of a paragraph *)
Definition rich_paragraph (udigit : char -> bool) (p : place) (l : list inline) : Prop :=
  rich l /\ wrappable udigit l /\ opens_paragraph l /\ tight (source l) /\
  (p = Quote -> forall t, source l <> lit "[!" ++ t) /\
  (in_item p -> ~ In ILineBreak (flat_map inline_preorder l)).
(** How far the content of the items of a list is indented. *)
Definition list_indent (config : md_config) (b : block) : nat :=
  match b with BList l => content_indent config (l_kind l) (List.length (l_items l)) | _ => 0 end.
Definition is_list (b : block) : Prop := match b with BList _ => True | _ => False end.
Definition is_indented (b : block) : Prop := match b with BCodeBlock (CodeBlock Indented _) => True | _ => False end.
(** Behind a list: the line between the blocks must not be indented further than
    the items of the list, and indented code would become part of the list. *)
Definition orderly (config : md_config) (p : place) (bs : list block) : Prop :=
  forall a b c d, bs = a ++ b :: c :: d -> is_list b -> between_blocks p <= margin p + list_indent config b /\ ~ is_indented c.
(** markers of the same width *)
Definition even_markers (kind : list_kind) (count : nat) : Prop :=
  forall i, i < count -> List.length (marker kind i) = List.length (marker kind (count - 1)).
Definition numbers_fit (kind : list_kind) (count : nat) : Prop :=
  match kind with Ordered start => (start + N.of_nat count <= u64_max)%N | Bullet _ => True end.
(** the source begins with "[x]" and a blank or nothing, as if it were a task *)
Definition task_start (s : str) : Prop := exists x t, s = ch "[" :: x :: ch "]" :: t /\ (forall c u, t = c :: u -> is_whitespace c = true).
(** the first block behind a marker without a task *)
Definition begins_item (config : md_config) (b : block) : Prop :=
  match b with
  | BParagraph c | BHeading (Heading (Setext _) c) => ~ task_start (source c)
  | BList _ => md_spaces_before_list_item config = 0
  | _ => True
  end.
Definition first_block (config : md_config) (task : option task_state) (bs : list block) : Prop :=
  match task, bs with None, b :: _ => begins_item config b | _, _ => True end.
(** alerts the parser knows by their label *)
Definition alert_type_ok (ty : alert_type) : Prop :=
  match ty with
  | Custom s => identifier s /\ map to_upper_ascii s = s /\ forall std t rest, In (std, t) standard_alerts -> s <> std ++ rest
  | _ => True
  end.
(** HTML with an end mark: comments, processing instructions, CDATA sections and
    declarations, up to the first mark; scripts, styles and "pre", up to the first
    of their end tags *)
Definition html_marks : list (str * str) := [(lit "<!--", lit "-->"); (lit "<?", lit "?>"); (lit "<![CDATA[", lit "]]>")].
Definition marked_html (s : str) : Prop :=
  exists o c a, (In (o, c) html_marks \/ c = lit ">" /\ exists u, is_upper u = true /\ o = lit "<!" ++ [u]) /\
    s = o ++ a ++ c /\ forall x y, a ++ c = x ++ c ++ y -> y = [].
Definition end_tag (e : str) : Prop := exists t, In (map to_lower t) SpecBlock.raw_names /\ e = lit "</" ++ t ++ lit ">".
Definition raw_html (s : str) : Prop :=
  exists t c a e, In (map to_lower t) SpecBlock.raw_names /\ In c [c_sp; ch ">"; c_nl] /\ end_tag e /\ s = ch "<" :: t ++ c :: a ++ e /\
    forall x f y, a ++ e = x ++ f ++ y -> end_tag f -> y = [].
Definition closed_html (s : str) : Prop := ~ In c_cr s /\ (marked_html s \/ raw_html s).
(** a block of tags: without blank lines, up to and including a line break; of
    names that begin with other names ("link", "header") the shorter one would be
    seen *)
Definition block_tag (n : str) : Prop :=
  In (map to_lower n) SpecBlock.block_names /\ forall m k, In m SpecBlock.block_names -> map to_lower n = m ++ k -> k = [].
Definition tag_html (s : str) : Prop :=
  ~ In c_cr s /\ exists o n x a, In o [lit "<"; lit "</"] /\ block_tag n /\ In x [lit " "; lit ">"; lit "/>"] /\ s = o ++ n ++ x ++ a ++ [c_nl] /\
    forall u w v, all is_space w -> a ++ [c_nl] <> u ++ c_nl :: w ++ c_nl :: v.
(** a complete tag of a name that begins no block of tags *)
Definition lone_tag (t : str) : Prop :=
  exists o c n d u, In o [lit "<"; lit "</"] /\ t = o ++ (c :: n) ++ d :: u /\ is_alpha c = true /\ all SpecBlock.tag_char n /\ SpecBlock.tag_char d = false /\
    ~ In (map to_lower (c :: n)) SpecBlock.block_names /\
    ((forall r, SpecBlock.open_tag (t ++ r) r) \/ (forall r, SpecBlock.close_tag (t ++ r) r)).
(** such a tag and what follows it, up to and including a blank line *)
Definition lone_html (s : str) : Prop :=
  ~ In c_cr s /\ exists t x a w, lone_tag t /\ In x [c_sp; c_nl] /\ all is_space w /\ s = t ++ x :: a ++ c_nl :: w ++ [c_nl] /\
    forall u w v, all is_space w -> a ++ [c_nl] <> u ++ c_nl :: w ++ c_nl :: v.
(** blocks printed without blank lines: in an alert blank lines lose their
    indentation *)
Fixpoint compact (b : block) : Prop :=
  match b with
  | BList (MkList _ items) =>
      fold_right (fun it P => (List.length (li_blocks it) <= 1 /\ fold_right (fun b P => compact b /\ P) True (li_blocks it)) /\ P) True items
  | BCodeBlock (CodeBlock _ s) | BHtmlBlock s => Forall (Exists (fun c => is_whitespace c = false)) (split_lines s)
  | _ => True
  end.
(** tables: rectangular, the alignments other than left (which is printed like
    none), cells of one line without "|" *)
Definition plain_cell (c : list inline) : Prop :=
  rich c /\ (c = [] \/ tight (source c)) /\ ~ In ILineBreak (flat_map inline_preorder c) /\ ~ In (ch "|") (source c).
Definition plain_table (t : table) : Prop :=
  t_rows t <> [] /\ t_alignments t <> [] /\ md_rectangular t /\ ~ In ALeft (t_alignments t) /\ Forall (Forall plain_cell) (t_rows t).
(** the label of a link definition; behind "> " it must not be wrapped, as the
    space in front of the second line would be read as part of the label *)
Definition plain_label (udigit : char -> bool) (p : place) (l : list inline) : Prop :=
  rich l /\ wrappable udigit l /\ in_brackets (source l) /\ ~ begins_with (ch "^") (source l) /\
  (p = Quote -> ~ begins_with (ch "!") (source l)) /\
  (in_item p -> ~ In ILineBreak (flat_map inline_preorder l)) /\
  (margin p = 0 \/ Forall (fun c => is_whitespace c = false) (source l)).
Section Fragment.
Variable udigit : char -> bool.
Variable config : md_config.
Fixpoint plain_block (p : place) (b : block) : Prop :=
  match b with
  | BParagraph c => rich_paragraph udigit p c
  | BHeading (Heading (Setext l) c) => rich_paragraph udigit p c /\ (in_item p -> l = Level1)
  | BHeading (Heading (Atx n) c) =>
      margin p = 0 /\ (1 <= n <= 6)%N /\ rich c /\ tight (source c) /\ ~ In ILineBreak (flat_map inline_preorder c)
  | BThematicBreak => ~ in_item p
  | BCodeBlock (CodeBlock (Fenced info) s) => ~ in_item p /\ fence_info info /\ fence_content s
  | BCodeBlock (CodeBlock Indented s) => p = Top /\ indented_content s
  | BDefinition (LinkDefinition l d t) => plain_label udigit p l /\ plain_target d t
  | BHtmlBlock s => (p = Top \/ ~ In c_nl s) /\ closed_html s \/ p = Top /\ (tag_html s \/ lone_html s)
  | BTable t => ~ in_item p /\ plain_table t
  | BBlockQuote bs => bs <> [] /\ orderly config Quote bs /\ fold_right (fun b P => plain_block Quote b /\ P) True bs
  | BGitHubAlert (GitHubAlert t bs) =>
      alert_type_ok t /\ orderly config Alert bs /\ fold_right (fun b P => (compact b /\ plain_block Alert b) /\ P) True bs
  | BList (MkList kind items) =>
      md_empty_line_before_list config = true /\ margin p + md_spaces_before_list_item config <= 3 /\
      items <> [] /\ even_markers kind (List.length items) /\ numbers_fit kind (List.length items) /\
      let q := Item (margin p + content_indent config kind (List.length items)) in
      fold_right (fun it P => (first_block config (li_task it) (li_blocks it) /\ orderly config q (li_blocks it) /\
                               fold_right (fun b P => plain_block q b /\ P) True (li_blocks it)) /\ P) True items
  | _ => False
  end.
Definition plain_document (d : document) : Prop := orderly config Top (d_blocks d) /\ Forall (plain_block Top) (d_blocks d).
End Fragment.
(** The columns that the markers and tasks of lists move a block to the right, at
    most. *)
Fixpoint list_columns (config : md_config) (b : block) : nat :=
  match b with
  | BBlockQuote bs | BGitHubAlert (GitHubAlert _ bs) => fold_right (fun b n => Nat.max (list_columns config b) n) 0 bs
  | BList (MkList kind items) =>
      content_indent config kind (List.length items) + 4 +
      fold_right (fun it n => Nat.max (fold_right (fun b n => Nat.max (list_columns config b) n) 0 (li_blocks it)) n) 0 items
  | _ => 0
  end.
(** upper-casing a non-ASCII character gives something, but no "[" or "!" *)
Definition upper_ok (upper : char -> str) : Prop :=
  forall c, is_ascii c = false -> exists d t, upper c = d :: t /\ ~ In d (lit "[!").
