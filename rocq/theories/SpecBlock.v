(** The block syntax, as a grammar on strings (specification for C70).

    As in SpecInline.v a rule is a relation [R s x r]: the input [s] begins with
    [x], and [r] is what follows.  Precedence is the order of [block_rules]. *)
From Coq Require Import String.
From Verif Require Export SpecInline.
Import ListNotations.
Open Scope list_scope.

(** ** Lines *)
(** a line ends with LF, CRLF or the input *)
Inductive line_end : str -> str -> Prop :=
| end_eol : forall e r, is_eol e -> line_end (e ++ r) r
| end_eof : line_end [] [].
(** the rest of the line, if it holds no carriage return *)
Definition plain_line : rule str := fun s v r =>
  exists m, s = v ++ m /\ ~ In 10%N v /\ ~ In 13%N v /\ line_end m r.
(** the rest of the line, if it is not empty; a carriage return counts as text
    unless a line feed follows *)
Definition text_line : rule str := fun s v r =>
  exists m, s = v ++ m /\ v <> [] /\ ~ In 10%N v /\ line_end m r /\
    ~ (begins_with 10%N m /\ exists u, v = u ++ [13%N]).
(** spaces and tabs only; [v] is the line with its end *)
Definition blank_line : rule str := fun s v r =>
  s = v ++ r /\ exists w m, s = w ++ m /\ all is_space w /\ line_end m r.
(** leading spaces removed: all of them, but at most [k] *)
Definition strip (k : nat) (s m : str) : Prop :=
  exists j, s = rep j c_sp ++ m /\ j <= k /\ (j < k -> ~ begins_with c_sp m).
(** as often as possible *)
Inductive repeated {A} (R : rule A) : str -> list A -> str -> Prop :=
| rep_stop : forall s, ~ applies R s -> repeated R s [] s
| rep_more : forall s a m l r, R s a m -> repeated R m l r -> repeated R s (a :: l) r.
(** the longest run of characters of a class *)
Definition longest (f : char -> bool) (s v r : str) : Prop :=
  s = v ++ r /\ all f v /\ forall c, begins_with c r -> f c = false.
(** [body] reaches to the first place where [stop] holds *)
Definition until (stop : str -> Prop) (body r : str) : Prop :=
  stop r /\ forall a b, body = a ++ b -> b <> [] -> ~ stop (b ++ r).
(** without the whitespace around it *)
Definition trimmed (s u : str) : Prop :=
  exists a b, s = a ++ u ++ b /\ all is_whitespace a /\ all is_whitespace b /\
    (forall c, begins_with c u -> is_whitespace c = false) /\
    (forall v c, u = v ++ [c] -> is_whitespace c = false).

(** ** The shape of a block; what is inside is still a string *)
Inductive shape :=
| HCode (c : code_block)
| HHeading (k : heading_kind) (text : str)
| HText (text : str)
| HBreak
| HAlert (ty : alert_type) (text : str)
| HQuote (text : str)
| HList (k : list_kind) (items : list (option task_state * str))
| HHtml (s : str)
| HFootnote (label text : str)
| HDefinition (label destination : str) (title : option str)
| HTable (header : list str) (rows : list (list str)) (al : list alignment)
| HCustom (l : list block)
| HLine (text : str).

(** ** Code blocks *)
Definition code_line : rule str := fun s v r =>
  exists m, (s = rep 4 c_sp ++ m \/ s = c_tab :: m) /\ plain_line m v r.
(** at least [n] of the fence character alone on a line *)
Definition fence_end (f : char) (n : nat) (s r : str) : Prop :=
  exists k j m, s = rep k c_sp ++ rep j f ++ m /\ k <= 3 /\ n <= j /\ line_end m r.
Definition fenced_line (k : nat) (f : char) (n : nat) : rule str := fun s v r =>
  (forall r', ~ fence_end f n s r') /\ exists m, strip k s m /\ plain_line m v r.
Inductive r_fenced : str -> shape -> str -> Prop :=
| R_fenced : forall k f n m info m1 ls m2 r, k <= 3 -> In f (lit "`~") -> 3 <= n -> ~ begins_with f m ->
    (info = None /\ line_end m m1 \/ exists v, info = Some v /\ text_line m v m1) ->
    repeated (fenced_line k f n) m1 ls m2 -> fence_end f n m2 r ->
    r_fenced (rep k c_sp ++ rep n f ++ m) (HCode (CodeBlock (Fenced info) (join [c_nl] ls))) r.
Inductive r_code_block : str -> shape -> str -> Prop :=
| R_indented : forall s ls r, ls <> [] -> repeated code_line s ls r ->
    r_code_block s (HCode (CodeBlock Indented (join [c_nl] ls))) r
| R_fence : forall s h r, r_fenced s h r -> r_code_block s h r.

(** ** Headings and thematic breaks *)
Inductive r_atx (bare : bool) : str -> shape -> str -> Prop :=
| R_atx : forall n w m v r, 1 <= n <= 6 -> (n < 6 -> ~ begins_with (ch "#") (w ++ m)) ->
    longest is_space (w ++ m) w m -> (w = [] -> bare = true) -> text_line m v r ->
    r_atx bare (rep n (ch "#") ++ w ++ m) (HHeading (Atx (N.of_nat n)) v) r.
Definition underline : rule setext_heading := fun s l r =>
  exists k c n w m, s = rep k c_sp ++ rep n c ++ w ++ m /\ k <= 3 /\ 1 <= n /\
    In (c, l) [(ch "=", Level1); (ch "-", Level2)] /\ all is_space w /\ line_end m r.
Inductive r_break_line : str -> shape -> str -> Prop :=
| R_break_line : forall k c n w m r, k <= 3 -> 3 <= n -> In c (lit "-_*") -> all is_space w -> line_end m r ->
    r_break_line (rep k c_sp ++ rep n c ++ w ++ m) HBreak r.

(** ** Quotes and alerts *)
Definition quote_line : rule str := fun s v r =>
  exists k m, s = rep k c_sp ++ ch ">" :: m /\ k <= 3 /\ plain_line m v r.
Inductive r_quote : str -> shape -> str -> Prop :=
| R_quote : forall s ls r, ls <> [] -> repeated quote_line s ls r -> ~ blank (join [c_nl] ls) ->
    r_quote s (HQuote (join [c_nl] ls)) r.
(** the first line is "[!NAME]", in any case *)
Inductive r_alert (upper : str -> str) : str -> shape -> str -> Prop :=
| R_alert : forall s l ls r u name ty, repeated quote_line s (l :: ls) r -> trimmed l u ->
    upper u = lit "[!" ++ name ++ lit "]" -> alert_of_name name ty ->
    (join [c_nl] ls = [] \/ ~ blank (join [c_nl] ls)) ->
    r_alert upper s (HAlert ty (join [c_nl] ls)) r.

(** ** Lists *)
Inductive marker_at : str -> list_kind -> str -> Prop :=
| mark_number : forall ds n c r, numeral 10 ds n -> (n < 2 ^ 64)%N -> In c (lit ".)") ->
    marker_at (ds ++ c :: r) (Ordered n) r
| mark_bullet : forall c b r, In (c, b) [(ch "*", Star); (ch "+", Plus); (ch "-", Dash)] ->
    marker_at (c :: r) (Bullet b) r.
Definition same_style (k k' : list_kind) : Prop :=
  match k, k' with Ordered _, Ordered _ => True | Bullet b, Bullet b' => b = b' | _, _ => False end.
Inductive task_at : str -> task_state -> str -> Prop :=
| task_done : forall c r, In c (lit "xX") -> task_at (ch "[" :: c :: ch "]" :: r) Complete r
| task_todo : forall r, task_at (lit "[ ]" ++ r) Incomplete r.
(** the first line of an item: its marker, the width of its marker (and
    following spaces), its task state and its text *)
Definition start : Type := list_kind * nat * option task_state * str.
Inductive item_empty : str -> start -> str -> Prop :=
| Item_empty : forall k s kind w m r, k <= 3 -> marker_at s kind (w ++ m) -> all is_space w -> line_end m r ->
    item_empty (rep k c_sp ++ s) (kind, k + (List.length s - List.length (w ++ m)) + 1, None, []) r.
Inductive item_task : str -> start -> str -> Prop :=
| Item_task : forall k s kind j t m1 m r, k <= 3 -> marker_at s kind (rep j c_sp ++ m1) -> j <= 3 ->
    task_at m1 t m -> line_end m r ->
    item_task (rep k c_sp ++ s) (kind, k + (List.length s - List.length m1) + 1, Some t, []) r.
Inductive item_text : str -> start -> str -> Prop :=
| Item_text : forall k s kind j m1 t m v r, k <= 3 -> marker_at s kind (rep j c_sp ++ m1) -> 1 <= j <= 4 ->
    (j < 4 -> ~ begins_with c_sp m1) ->
    ((exists x, t = Some x /\ task_at m1 x (c_sp :: m)) \/ (t = None /\ m = m1 /\ forall x m', ~ task_at m1 x (c_sp :: m'))) ->
    plain_line m v r ->
    item_text (rep k c_sp ++ s) (kind, k + (List.length s - List.length m1), t, v) r.
Definition item_start : rule start := first_of [item_empty; item_task; item_text].
(** the following lines: indented or not, unless they begin another item or are
    a thematic break; after blank lines only with the full indentation *)
Definition other_item (k : list_kind) (n : nat) (s : str) : Prop :=
  exists j m k' r, s = rep j c_sp ++ m /\ j < n /\ marker_at m k' r /\ same_style k k'.
Definition item_line (k : list_kind) (n : nat) : rule str := fun s v r =>
  ~ applies r_break_line s /\ ~ other_item k n s /\
  first_of [ (fun s v r => exists m, strip n s m /\ text_line m v r);
             (fun s v r => exists bl m v', bl <> [] /\ repeated blank_line s bl (rep n c_sp ++ m) /\
                text_line m v' r /\ v = concat bl ++ v') ] s v r.
Inductive item_at : str -> list_kind * (option task_state * str) -> str -> Prop :=
| Item : forall s k n t v m ls r, item_start s (k, n, t, v) m -> repeated (item_line k n) m ls r ->
    item_at s (k, (t, join [c_nl] (v :: ls))) r.
(** all items in a row make one list, whatever their markers *)
Inductive r_list : str -> shape -> str -> Prop :=
| R_list : forall s k x items r, repeated item_at s ((k, x) :: items) r ->
    r_list s (HList k (x :: map snd items)) r.

(** ** HTML blocks: the text of the block *)
Definition any_case (n : str) : rule str := fun s t r => s = t ++ r /\ map to_lower t = n.
(** up to and including the first [close] *)
Definition closed (open close : str) : rule str := fun s v r =>
  exists body, v = open ++ body ++ close /\ s = v ++ r /\
    until (fun x => exists y, x = close ++ y) body (close ++ r).
Definition raw_names : list str := map lit ["script"; "pre"; "style"]%string.
Definition raw_end (s r : str) : Prop :=
  exists t, s = lit "</" ++ t ++ ch ">" :: r /\ In (map to_lower t) raw_names.
(** any of the three end tags will do *)
Definition html1 : rule str := fun s v r =>
  exists t x body e, v = ch "<" :: t ++ x ++ body ++ e /\ s = v ++ r /\ In (map to_lower t) raw_names /\
    (x = lit " " \/ x = lit ">" \/ is_eol x) /\
    raw_end (e ++ r) r /\ until (fun y => exists r', raw_end y r') body (e ++ r).
Definition html4 : rule str := fun s v r => exists c, is_upper c = true /\ closed (lit "<!" ++ [c]) (lit ">") s v r.
(** the first name of the list that the text begins with is taken, even if a
    later, longer one would fit *)
Definition block_names : list str := map lit
  ["address"; "article"; "aside"; "base"; "basefont"; "blockquote"; "body"; "caption";
   "center"; "col"; "colgroup"; "dd"; "details"; "dialog"; "dir"; "div"; "dl"; "dt";
   "fieldset"; "figcaption"; "figure"; "footer"; "form"; "frame"; "frameset";
   "h1"; "h2"; "h3"; "h4"; "h5"; "h6"; "head"; "header"; "hr"; "html"; "iframe"; "legend";
   "li"; "link"; "main"; "menu"; "menuitem"; "nav"; "noframes"; "ol"; "optgroup";
   "option"; "p"; "param"; "section"; "source"; "summary"; "table"; "tbody"; "td";
   "tfoot"; "th"; "thead"; "title"; "tr"; "track"; "ul"]%string.
(** a blank line follows, or nothing *)
Definition paragraph_end (s : str) : Prop := s = [] \/ at_blank_line s.
Definition html6 : rule str := fun s v r =>
  exists o t x body e m, v = o ++ t ++ x ++ body ++ e /\ s = v ++ r /\ In o [lit "<"; lit "</"] /\
    m = x ++ body ++ e ++ r /\ first_of (map any_case block_names) (t ++ m) t m /\
    (x = lit " " \/ x = lit "/>" \/ x = lit ">" \/ is_eol x) /\
    until paragraph_end body (e ++ r) /\ (is_eol e \/ e = [] /\ r = []).
(** complete tags *)
Definition tag_char (c : char) : bool := is_alnum c || N.eqb c (ch "-").
Definition tag_name : rule str := fun s n r => longest tag_char s n r /\ exists c t, n = c :: t /\ is_alpha c = true.
Definition attr_char (c : char) : bool := is_alnum c || existsb (N.eqb c) (lit "_.:-").
Definition attr_name (s r : str) : Prop :=
  exists c t, longest attr_char s (c :: t) r /\ (is_alpha c = true \/ In c (lit "_:")).
(** a quoted value is a single character *)
Definition value_char (c : char) : bool := negb (existsb (N.eqb c) (32%N :: 9%N :: 34%N :: lit "'=<>`")).
Definition attr_value (s r : str) : Prop :=
  (exists v, v <> [] /\ longest value_char s v r) \/
  exists q c, In q [ch "'"; 34%N] /\ s = q :: c :: q :: r /\ c <> q.
Definition attr_assigned (s r : str) : Prop :=
  exists w w' m, s = w ++ ch "=" :: w' ++ m /\ all is_space w /\ all is_space w' /\ attr_value m r.
Definition attribute : rule str := fun s v r => s = v ++ r /\
  exists w m1 m2, s = w ++ m1 /\ w <> [] /\ all is_space w /\ attr_name m1 m2 /\
    (attr_assigned m2 r \/ (m2 = r /\ forall r', ~ attr_assigned m2 r')).
Definition open_tag (s r : str) : Prop :=
  exists m n m1 l m2 w c, s = ch "<" :: m /\ tag_name m n m1 /\ ~ In (map to_lower n) raw_names /\
    repeated attribute m1 l m2 /\ m2 = w ++ c ++ ch ">" :: r /\ all is_space w /\ In c [[]; lit "/"].
Definition close_tag (s r : str) : Prop :=
  exists m n w, s = lit "</" ++ m /\ tag_name m n (w ++ ch ">" :: r) /\ all is_space w.
Definition html7 : rule str := fun s v r =>
  exists t x body e, v = t ++ x ++ body ++ e /\ s = v ++ r /\
    (open_tag s (x ++ body ++ e ++ r) \/ close_tag s (x ++ body ++ e ++ r)) /\
    (x = lit " " \/ is_eol x) /\ until paragraph_end body (e ++ r) /\
    ((exists e1 w e2, e = e1 ++ w ++ e2 /\ is_eol e1 /\ is_eol e2 /\ all is_space w) \/ e = [] /\ r = []).
Definition html_at : rule str :=
  first_of [html1; closed (lit "<!--") (lit "-->"); closed (lit "<?") (lit "?>"); html4;
            closed (lit "<![CDATA[") (lit "]]>"); html6; html7].
Inductive r_html : str -> shape -> str -> Prop :=
| R_html : forall k m v r, k <= 3 -> html_at m v r -> r_html (rep k c_sp ++ m) (HHtml v) r.

(** ** Definitions *)
(** "[^label]: text", then lines indented by three spaces *)
Definition footnote_line : rule str := fun s v r => exists m, s = rep 3 c_sp ++ m /\ text_line m v r.
Inductive r_footnote_def : str -> shape -> str -> Prop :=
| R_footnote_def : forall k label m m1 v m2 ls r, k <= 3 -> label <> [] -> ~ In (ch "]") label ->
    strip 3 m m1 -> text_line m1 v m2 -> repeated footnote_line m2 ls r ->
    r_footnote_def (rep k c_sp ++ lit "[^" ++ label ++ lit "]:" ++ m) (HFootnote label (join [c_nl] (v :: ls))) r.
(** spaces, tabs and at most one line ending *)
Definition one_gap (w : str) : Prop :=
  exists a e b, w = a ++ e ++ b /\ all is_space a /\ all is_space b /\ (e = [] \/ is_eol e).
(** "[label]: destination "title"" *)
Definition definition_title : rule str := fun s t r =>
  exists w m, s = w ++ m /\ w <> [] /\ one_gap w /\ title_at m t r.
Inductive r_definition : str -> shape -> str -> Prop :=
| R_definition : forall k s label w m d m1 t m2 r, k <= 3 -> bracket_at s label (ch ":" :: w ++ m) -> one_gap w ->
    destination_at m d m1 ->
    ((exists x, t = Some x /\ definition_title m1 x m2) \/ (t = None /\ m2 = m1 /\ ~ applies definition_title m1)) ->
    line_end m2 r ->
    r_definition (rep k c_sp ++ s) (HDefinition label d t) r.

(** ** Tables *)
(** cells between bars; the last bar may be missing *)
Inductive cells {A} (cell : rule A) : str -> list A -> str -> Prop :=
| cells_last : forall s x m m' r, cell s x m -> (m = m' \/ m = ch "|" :: m') -> line_end m' r -> cells cell s [x] r
| cells_more : forall s x m l r, cell s x (ch "|" :: m) -> cells cell m l r -> cells cell s (x :: l) r.
Definition row {A} (cell : rule A) : rule (list A) := fun s l r =>
  exists k m, s = rep k c_sp ++ ch "|" :: m /\ k <= 3 /\ cells cell m l r.
(** the text of a cell: up to a bar or the end of the line; "\|" stands for "|" *)
Inductive cell_text : str -> str -> str -> Prop :=
| cell_stop : forall s, begins_with (ch "|") s \/ (exists r, line_end s r) -> cell_text s [] s
| cell_bar : forall s t r, cell_text s t r -> cell_text (ch "\" :: ch "|" :: s) (ch "|" :: t) r
| cell_char : forall c s t r, c <> ch "|" -> (forall r', ~ line_end (c :: s) r') ->
    ~ (c = ch "\" /\ begins_with (ch "|") s) -> cell_text s t r -> cell_text (c :: s) (c :: t) r.
Definition cell_at : rule str := fun s t r => t <> [] /\ cell_text s t r.
(** ":--", "--:", ":-:", "--" *)
Definition align_at : rule alignment := fun s a r =>
  exists w n w', 1 <= n /\ all is_space w /\ all is_space w' /\
    ((a = ALeft /\ s = w ++ lit ":" ++ rep n (ch "-") ++ w' ++ r) \/
     (a = ARight /\ s = w ++ rep n (ch "-") ++ lit ":" ++ w' ++ r) \/
     (a = ACenter /\ s = w ++ lit ":" ++ rep n (ch "-") ++ lit ":" ++ w' ++ r) \/
     (a = ANone /\ s = w ++ rep n (ch "-") ++ w' ++ r)).
Inductive r_table : str -> shape -> str -> Prop :=
| R_table : forall s header m1 al m2 rows r, row cell_at s header m1 -> row align_at m1 al m2 ->
    List.length al = List.length header -> repeated (row cell_at) m2 rows r ->
    r_table s (HTable header rows al) r.

(** ** Precedence *)
Section Rules.
  Variable cfg : config.
  Definition upper_text (s : str) : str :=
    flat_map (fun c => if (c <? 128)%N then [if is_lower c then (c - 32)%N else c] else upper_table cfg c) s.
  Definition atx := r_atx (allow_no_space_in_headings cfg).
  Inductive r_custom_block : str -> shape -> str -> Prop :=
  | R_custom_block : forall p s l r, custom_block cfg = Some p -> p s = Ok r l -> r_custom_block s (HCustom l) r.
  (** what a line of a paragraph must not begin with *)
  Definition starter (s : str) : Prop := Exists (fun P => P)
    [ applies (on (b_heading_v1 cfg) atx) s;
      applies (on (b_heading_v2 cfg) underline) s;
      applies (on (b_thematic_break cfg) r_break_line) s;
      applies (on (b_blockquote cfg) r_quote) s;
      applies (on (b_list cfg) item_at) s;
      applies (on (b_code_block cfg) r_fenced) s;
      applies (on (b_html_block cfg) r_html) s;
      applies (on (b_link_definition cfg) r_definition) s;
      applies (on (b_footnote_definition cfg) r_footnote_def) s;
      applies (on (b_table cfg) r_table) s;
      applies r_custom_block s;
      applies blank_line s ].
  Definition paragraph_line : rule str := fun s v r =>
    ~ starter s /\ exists m, strip 3 s m /\ text_line m v r.
  (** lines of text, underlined (a heading) or not (a paragraph) *)
  Inductive r_lines : str -> shape -> str -> Prop :=
  | R_setext : forall s ls m l r, ls <> [] -> repeated paragraph_line s ls m -> underline m l r ->
      r_lines s (HHeading (Setext l) (join [c_nl] ls)) r
  | R_paragraph : forall s ls r, ls <> [] -> repeated paragraph_line s ls r -> ~ applies underline r ->
      r_lines s (HText (join [c_nl] ls)) r.
  (** a line that fits nothing else *)
  Inductive r_line : str -> shape -> str -> Prop :=
  | R_line : forall s m v r, strip 3 s m -> text_line m v r -> r_line s (HLine v) r.
  Definition block_rules : list (rule shape) :=
    [ on (b_code_block cfg) r_code_block;
      on (b_heading_v1 cfg) atx;
      on (b_heading_v2 cfg) r_lines;
      on (b_thematic_break cfg) r_break_line;
      on (b_github_alert cfg) (r_alert upper_text);
      on (b_blockquote cfg) r_quote;
      on (b_list cfg) r_list;
      on (b_html_block cfg) r_html;
      on (b_footnote_definition cfg) r_footnote_def;
      on (b_link_definition cfg) r_definition;
      on (b_table cfg) r_table;
      r_custom_block;
      on (b_paragraph cfg) r_line ].
  (** the switch of the block; hooks for alerts are not run *)
  Definition block_behavior (h : shape) : behavior block :=
    match h with
    | HCode _ => b_code_block cfg
    | HHeading (Atx _) _ => b_heading_v1 cfg
    | HHeading (Setext _) _ | HText _ => b_heading_v2 cfg
    | HBreak => b_thematic_break cfg
    | HAlert _ _ => match b_github_alert cfg with Skip => Skip | _ => Parse end
    | HQuote _ => b_blockquote cfg
    | HList _ _ => b_list cfg
    | HHtml _ => b_html_block cfg
    | HFootnote _ _ => b_footnote_definition cfg
    | HDefinition _ _ _ => b_link_definition cfg
    | HTable _ _ _ => b_table cfg
    | HCustom _ => Parse
    | HLine _ => b_paragraph cfg
    end.

  (** a row of [n] cells: extra cells are dropped, missing ones empty *)
  Inductive row_cells : nat -> list str -> list (list inline) -> Prop :=
  | row_full : forall l, row_cells 0 l []
  | row_missing : forall n c, row_cells n [] c -> row_cells (S n) [] ([IText []] :: c)
  | row_next : forall n t u i l c, trimmed t u -> reads cfg u i -> row_cells n l c -> row_cells (S n) (t :: l) (i :: c).

  (** ** Reading a document: blocks one after another, their contents likewise *)
  Inductive makes : shape -> block -> Prop :=
  | M_code : forall c, makes (HCode c) (BCodeBlock c)
  | M_heading : forall k t l, reads cfg t l -> makes (HHeading k t) (BHeading (Heading k l))
  | M_text : forall t l, reads cfg t l -> makes (HText t) (BParagraph l)
  | M_break : makes HBreak BThematicBreak
  | M_alert : forall ty t bs, blocks t bs -> makes (HAlert ty t) (BGitHubAlert (GitHubAlert ty bs))
  | M_quote : forall t bs, blocks t bs -> makes (HQuote t) (BBlockQuote bs)
  | M_list : forall k items l, item_blocks items l -> makes (HList k items) (BList (MkList k l))
  | M_html : forall s, makes (HHtml s) (BHtmlBlock s)
  | M_footnote : forall label t bs, blocks t bs -> makes (HFootnote label t) (BFootnoteDefinition (FootnoteDefinition label bs))
  | M_definition : forall label d t l, reads cfg label l -> makes (HDefinition label d t) (BDefinition (LinkDefinition l d t))
  | M_table : forall header rows al h l, row_cells (List.length header) header h ->
      Forall2 (row_cells (List.length header)) rows l -> makes (HTable header rows al) (BTable (Table (h :: l) al))
  | M_line : forall t l, reads cfg t l -> makes (HLine t) (BParagraph l)
  with item_blocks : list (option task_state * str) -> list list_item -> Prop :=
  | Items_nil : item_blocks [] []
  | Items_cons : forall t text bs items l, blocks text bs -> item_blocks items l ->
      item_blocks ((t, text) :: items) (ListItem t bs :: l)
  with makes_all : shape -> list block -> Prop :=
  | Makes : forall h b, makes h b -> makes_all h (outcome BEmpty (block_behavior h) b)
  | Makes_custom : forall l, makes_all (HCustom l) l
  with blocks : str -> list block -> Prop :=
  | Blocks_end : forall s, blank s -> blocks s []
  | Blocks_more : forall s bl m h r o l, repeated blank_line s bl m -> first_of block_rules m h r ->
      makes_all h o -> blocks r l -> blocks s (o ++ l).
End Rules.
