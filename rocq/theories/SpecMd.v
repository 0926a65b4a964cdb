(** Independent vocabulary for the Markdown printer properties: what
    [render_markdown] is documented to print, written without documents,
    groups, columns or widths. *)
From Coq Require Import String.
From Verif Require Export Ast MdPrinter.
Import ListNotations.
Open Scope list_scope.

(** ** Words *)
(** A text as words ([Some w]) separated by blanks ([None]); a run of
    whitespace counts as one blank. *)
Definition token_char (c : char) (l : list (option str)) : list (option str) :=
  if is_whitespace c then match l with None :: _ => l | _ => None :: l end
  else match l with Some w :: l' => Some (c :: w) :: l' | _ => Some [c] :: l end.
Definition tokens (t : str) : list (option str) := fold_right token_char [] t.
(** the words of a string *)
Definition words (t : str) : list str :=
  flat_map (fun x => match x with Some w => [w] | None => [] end) (tokens t).

(** Words documented as unsafe at the beginning of a line. *)
Definition digit (udigit : char -> bool) (c : char) : Prop :=
  is_digit c = true \/ (is_ascii c = false /\ udigit c = true).
Inductive unsafe_word (udigit : char -> bool) : str -> Prop :=
| unsafe_single : forall c, In c (lit "-*+#>|") -> unsafe_word udigit [c]
| unsafe_hashes : forall n, unsafe_word udigit (repeat (ch "#") (S n))
| unsafe_number : forall d l, Forall (digit udigit) (d :: l) -> unsafe_word udigit ((d :: l) ++ lit ".")
| unsafe_rule : forall c n, In c (lit "-*_") -> 3 <= n -> unsafe_word udigit (repeat c n)
| unsafe_fence : forall f w, In f [lit "```"; lit "~~~~"] -> unsafe_word udigit (f ++ w).

(** ** Lines: ended by LF or CRLF; what follows the last line end is a line if it
    is not empty (C66_lines: the printer's [lines] cuts texts this way) *)
Inductive cut_lines : str -> list str -> Prop :=
| cut_nil : cut_lines [] []
| cut_last : forall l, l <> [] -> ~ In 10%N l -> cut_lines l [l]
| cut_lf : forall l s ls, ~ In 10%N l -> (forall u, l <> u ++ [13%N]) -> cut_lines s ls -> cut_lines (l ++ 10%N :: s) (l :: ls)
| cut_crlf : forall l s ls, ~ In 10%N l -> cut_lines s ls -> cut_lines (l ++ 13%N :: 10%N :: s) (l :: ls).

(** ** Pieces of output *)
Inductive piece :=
| Word (s : str)                        (* exactly this *)
| Soft                                  (* a space or a line break *)
| Newline                               (* a line break *)
| Quoted (inner : list (nat * piece))   (* lines, each behind "> " *)
| Alerted (inner : list (nat * piece)). (* lines on their own, each behind ">" *)
(** A piece comes with the indentation of the construct it belongs to. *)
Notation pieces := (list (nat * piece)).

(** A line break is followed by the indentation of the next piece; at the end
    by [aft] if given, by its own indentation if not. *)
Definition next_indent (aft : option nat) (own : nat) (ps : pieces) : nat :=
  match ps with
  | (i, _) :: _ => i
  | [] => match aft with Some i => i | None => own end
  end.
Definition break_to (i : nat) : str := c_nl :: rep i c_sp.
(** ">" in front of a line of an alert, "> " unless the line is blank *)
Definition alert_text (l : str) : str := if forallb is_whitespace l then lit ">" else lit "> " ++ l.
(** [laid aft ps s]: [s] is a layout of [ps]. *)
Inductive laid (aft : option nat) : pieces -> str -> Prop :=
| laid_nil : laid aft [] []
| laid_word : forall i s ps o, laid aft ps o -> laid aft ((i, Word s) :: ps) (s ++ o)
| laid_space : forall i ps o, laid aft ps o -> laid aft ((i, Soft) :: ps) (c_sp :: o)
| laid_break : forall i ps o, laid aft ps o ->
    laid aft ((i, Soft) :: ps) (break_to (next_indent aft i ps) ++ o)
| laid_newline : forall i ps o, laid aft ps o ->
    laid aft ((i, Newline) :: ps) (break_to (next_indent aft i ps) ++ o)
| laid_quoted : forall i inner t ps o, laid None inner t -> laid aft ps o ->
    laid aft ((i, Quoted inner) :: ps)
      (join (break_to i) (map (fun l => lit "> " ++ l) (lines t)) ++ o)
| laid_alerted : forall i inner t ps o, laid None inner t -> laid aft ps o ->
    laid aft ((i, Alerted inner) :: ps)
      (flat_map (fun l => break_to i ++ alert_text l) (lines t) ++ o).

(** ** The view of inlines *)
Section View.
Variable upper : char -> str.
Variable udigit : char -> bool.
Variable config : md_config.

Definition unsafe (w : str) : bool := is_markdown_syntax_at_line_start udigit w.
(** a text: single blanks between words; a blank may become a line break
    unless the next word is unsafe at the beginning of a line *)
Fixpoint flowing (l : list (option str)) : list piece :=
  match l with
  | [] => []
  | Some w :: l' => Word w :: flowing l'
  | None :: l' =>
      (match l' with
       | Some w :: _ => if unsafe w then Word [c_sp] else Soft
       | _ => Soft
       end) :: flowing l'
  end.
(** ... or never, on one line *)
Definition fixed (l : list (option str)) : list piece :=
  map (fun x => match x with Some w => Word w | None => Word [c_sp] end) l.
Definition quoted_title (t : str) : str := lit " """ ++ t ++ lit """".

Fixpoint inline_view (wrap : bool) (i : inline) : list piece :=
  let children l := flat_map (inline_view wrap) l in
  match i with
  | IText t => if wrap then flowing (tokens t) else fixed (tokens t)
  | ILineBreak => [Word (lit "  " ++ [c_nl])]
  | ICode s => [Word (lit "`"); Word s; Word (lit "`")]
  | IHtml s => [Word s]
  | IEmphasis c => [Word (lit "*")] ++ children c ++ [Word (lit "*")]
  | IStrong c => [Word (lit "**")] ++ children c ++ [Word (lit "**")]
  | IStrikethrough c => [Word (lit "~~")] ++ children c ++ [Word (lit "~~")]
  | ILink (Link d t c) =>
      [Word (lit "[")] ++ children c ++ [Word (lit "]("); Word d]
      ++ match t with Some t => [Word (lit " """); Word t; Word (lit """")] | None => [] end
      ++ [Word (lit ")")]
  | IImage (Image d t alt) =>
      [Word (lit "!["); Word alt; Word (lit "]("); Word d;
       Word match t with Some t => quoted_title t | None => [] end; Word (lit ")")]
  | IAutolink u => [Word (lit "<" ++ u ++ lit ">")]
  | IFootnoteReference l => [Word (lit "[^" ++ l ++ lit "]")]
  | IEmpty => []
  | ILinkReference (LinkReference l t) =>
      if list_eqb inline_eqb l t then [Word (lit "[")] ++ children l ++ [Word (lit "]")]
      else [Word (lit "[")] ++ children t ++ [Word (lit "][")] ++ children l ++ [Word (lit "]")]
  end.
Definition inlines_view (wrap : bool) (l : list inline) : list piece := flat_map (inline_view wrap) l.

(** The text of a view that leaves no choice: a table cell or an ATX heading. *)
Definition piece_text (p : piece) : str :=
  match p with Word s => s | _ => [] end.
Definition one_line (l : list inline) : str := flat_map piece_text (inlines_view false l).

(** ** Tables: the k-th cell of every row is as wide as the widest cell of the
    column, at least as wide as the delimiter needs *)
Definition cell_pad (al : alignment) (w : nat) (s : str) : str :=
  let n := w - List.length s in
  match al with
  | ANone | ALeft => s ++ rep n c_sp
  | ARight => rep n c_sp ++ s
  | ACenter => rep (n / 2) c_sp ++ s ++ rep (n - n / 2) c_sp
  end.
Definition delimiter (al : alignment) (w : nat) : str :=
  match al with
  | ANone | ALeft => rep w (ch "-")
  | ARight => rep (w - 1) (ch "-") ++ lit ":"
  | ACenter => lit ":" ++ rep (w - 2) (ch "-") ++ lit ":"
  end.
Definition least_width (al : alignment) : nat :=
  match al with ANone | ALeft => 1 | ARight => 2 | ACenter => 3 end.
Definition widest (t : table) (k : nat) : nat :=
  list_max (least_width (nth k (t_alignments t) ANone)
            :: map (fun row => List.length (one_line (nth k row []))) (t_rows t)).
(** (cells beyond the header row are laid out three columns wide) *)
Definition column_chars (t : table) (k : nat) : nat :=
  if k <? List.length (hd [] (t_rows t)) then widest t k else 3.
Definition table_line (cells : list str) : str := lit "| " ++ join (lit " | ") cells ++ lit " |".
Definition table_row_cells (t : table) (row : table_row) : list str :=
  map (fun k => cell_pad (nth k (t_alignments t) ANone) (column_chars t k) (one_line (nth k row [])))
      (seq 0 (List.length row)).
Definition delimiter_cells (t : table) : list str :=
  map (fun k => delimiter (nth k (t_alignments t) ANone) (column_chars t k)) (seq 0 (List.length (t_alignments t))).
Definition table_lines (t : table) : list str :=
  match t_rows t with
  | [] => []
  | header :: body =>
      table_line (table_row_cells t header) :: table_line (delimiter_cells t)
      :: map (fun row => table_line (table_row_cells t row)) body
  end.
(** as many cells in every row as there are alignments *)
Definition md_rectangular (t : table) : Prop :=
  Forall (fun row => List.length row = List.length (t_alignments t)) (t_rows t).

(** [placed al s cell]: [cell] is [s] with blanks added on the side(s) the
    alignment asks for *)
Definition placed (al : alignment) (s cell : str) : Prop :=
  exists a b, cell = rep a c_sp ++ s ++ rep b c_sp /\
    match al with
    | ANone | ALeft => a = 0
    | ARight => b = 0
    | ACenter => a = b \/ S a = b
    end.
(** [delimits al cell]: [cell] is a GFM delimiter for the alignment *)
Definition delimits (al : alignment) (cell : str) : Prop :=
  exists n, 1 <= n /\
    cell = match al with
           | ANone | ALeft => repeat (ch "-") n
           | ARight => repeat (ch "-") n ++ lit ":"
           | ACenter => lit ":" ++ repeat (ch "-") n ++ lit ":"
           end.

(** ** The view of blocks at indentation [ind] *)
Definition at_ (ind : nat) (l : list piece) : pieces := map (pair ind) l.
Definition setext_line (l : setext_heading) : str :=
  match l with Level1 => lit "==========" | Level2 => lit "----------" end.
Definition heading_view (h : heading) : list piece :=
  match h with
  | Heading (Atx n) c => [Word (rep (N.to_nat n) (ch "#")); Word [c_sp]] ++ inlines_view false c
  | Heading (Setext l) c => inlines_view true c ++ [Newline; Word (setext_line l)]
  end.
Definition code_view (c : code_block) : list piece :=
  match c with
  | CodeBlock (Fenced info) s =>
      [Word (lit "```" ++ match info with Some i => i | None => [] end ++ [c_nl]); Word s; Word (c_nl :: lit "```")]
  | CodeBlock Indented s => [Word (join [c_nl] (map (fun l => lit "    " ++ l) (lines s)))]
  end.
Definition definition_view (d : link_definition) : list piece :=
  [Word (lit "[")] ++ inlines_view true (ld_label d) ++
  [Word (lit "]: "); Word (ld_destination d ++ match ld_title d with Some t => quoted_title t | None => [] end)].
Definition alert_label (t : alert_type) : str :=
  match t with
  | Note => lit "NOTE" | Tip => lit "TIP" | Important => lit "IMPORTANT"
  | Warning => lit "WARNING" | Caution => lit "CAUTION"
  | Custom s => flat_map (fun c => if is_ascii c then [to_upper_ascii c] else upper c) s
  end.
Definition task_view (t : option task_state) : list piece :=
  match t with
  | Some Complete => [Word (lit "[X]"); Word [c_sp]]
  | Some Incomplete => [Word (lit "[ ]"); Word [c_sp]]
  | None => []
  end.
(** the marker of item [k] (from 0) *)
Definition marker (kind : list_kind) (k : nat) : str :=
  match kind with
  | Bullet Dash => lit "-"
  | Bullet Star => lit "*"
  | Bullet Plus => lit "+"
  | Ordered start => dec (start + N.of_nat k) ++ lit "."
  end.
(** how far the content of an item is indented: the spaces, the widest marker
    of the list and one space *)
Definition content_indent (kind : list_kind) (count : nat) : nat :=
  md_spaces_before_list_item config + List.length (marker kind (count - 1)) + 1.

(** Blocks are separated by an empty line, in front of lists only if the
    configuration says so. *)
Definition separator (b : block) : list piece :=
  match b with
  | BList _ => if md_empty_line_before_list config then [Newline; Newline] else [Newline]
  | _ => [Newline; Newline]
  end.
Fixpoint separated (ind : nat) (l : list (block * pieces)) : pieces :=
  match l with
  | [] => []
  | (b, ps) :: l' => at_ ind (separator b) ++ ps ++ separated ind l'
  end.
Definition blocks_pieces (ind : nat) (l : list (block * pieces)) : pieces :=
  match l with [] => [] | (_, ps) :: l' => ps ++ separated ind l' end.
(** Items, a line break between them. *)
Fixpoint item_pieces (ind : nat) (k : nat) (kind : list_kind) (l : list (option task_state * pieces)) : pieces :=
  match l with
  | [] => []
  | (task, ps) :: l' =>
      (if k =? 0 then [] else [(ind, Newline)]) ++
      at_ ind ([Word (rep (md_spaces_before_list_item config) c_sp); Word (marker kind k); Word [c_sp]] ++ task_view task)
      ++ ps ++ item_pieces ind (S k) kind l'
  end.
Fixpoint block_view (ind : nat) (b : block) : pieces :=
  let blocks ind l := blocks_pieces ind (map (fun x => (x, block_view ind x)) l) in
  match b with
  | BParagraph c => at_ ind (inlines_view true c)
  | BHeading h => at_ ind (heading_view h)
  | BThematicBreak => [(ind, Word (lit "---"))]
  | BBlockQuote inner => [(ind, Quoted (blocks 0 inner))]
  | BList (MkList kind items) =>
      item_pieces ind 0 kind
        (map (fun it => (li_task it, blocks (ind + content_indent kind (List.length items)) (li_blocks it))) items)
  | BCodeBlock c => at_ ind (code_view c)
  | BHtmlBlock html => [(ind, Word html)]
  | BDefinition d => at_ ind (definition_view d)
  | BTable t => match t_rows t with [] => [] | _ => [(ind, Word (join [c_nl] (table_lines t)))] end
  | BFootnoteDefinition (FootnoteDefinition label bs) =>
      (ind, Word (lit "[^" ++ label ++ lit "]: ")) :: blocks ind bs
  | BGitHubAlert (GitHubAlert t bs) =>
      (ind, Word (lit "> [!" ++ alert_label t ++ lit "]"))
      :: match bs with [] => [] | _ => [(ind, Alerted (blocks 0 bs))] end
  | BEmpty => []
  end.
Definition document_view (d : document) : pieces :=
  blocks_pieces 0 (map (fun x => (x, block_view 0 x)) (d_blocks d)).
End View.

(** ** When rendering panics *)
Section Panics.
Variable uwidth : str -> nat.
Variable udigit : char -> bool.
Variable config : md_config.
(** display width *)
Definition columns (s : str) : nat := text_len uwidth s.
(** A cell wider than its column: the cell lies beyond the columns of the
    header row, where the column width is taken to be 3. *)
Definition table_overflow (t : table) : Prop :=
  exists header row k cell, hd_error (t_rows t) = Some header /\ In row (t_rows t) /\
    nth_error row k = Some cell /\ List.length header <= k /\ 3 < List.length (one_line udigit cell).
(** The numbers of an ordered list, up to one behind the last, fit in 64 bits. *)
Definition number_overflow (kind : list_kind) (count : nat) : Prop :=
  match kind with
  | Ordered start => let next := (start + N.of_nat count)%N in (u64_max < next)%N \/ next = 0%N
  | Bullet _ => False
  end.
Definition task_width (t : option task_state) : nat := match t with Some _ => 4 | None => 0 end.

(** [col]: the column where the block starts; [ind]: the indentation, where
    later blocks start.  A quote needs two columns; quotes and alerts render
    their content from column 0. *)
Inductive panics : nat -> nat -> block -> Prop :=
| panics_quote : forall col ind bs, md_width config < col + 2 -> panics col ind (BBlockQuote bs)
| panics_in_quote : forall col ind bs, panics_blocks 0 0 bs -> panics col ind (BBlockQuote bs)
| panics_alert : forall col ind t bs, panics_blocks 0 0 bs -> panics col ind (BGitHubAlert (GitHubAlert t bs))
| panics_table : forall col ind t, table_overflow t -> panics col ind (BTable t)
| panics_numbers : forall col ind kind items, number_overflow kind (List.length items) ->
    panics col ind (BList (MkList kind items))
| panics_item : forall col ind kind items k task bs,
    nth_error items k = Some (ListItem task bs) ->
    panics_blocks
      ((if k =? 0 then col else ind) + md_spaces_before_list_item config
        + List.length (marker kind k) + 1 + task_width task)
      (ind + content_indent config kind (List.length items)) bs ->
    panics col ind (BList (MkList kind items))
| panics_footnote : forall col ind label bs,
    panics_blocks (col + columns (lit "[^" ++ label ++ lit "]: ")) ind bs ->
    panics col ind (BFootnoteDefinition (FootnoteDefinition label bs))
with panics_blocks : nat -> nat -> list block -> Prop :=
| panics_first : forall col ind b l, panics col ind b -> panics_blocks col ind (b :: l)
| panics_later : forall col ind b l c, In c l -> panics ind ind c -> panics_blocks col ind (b :: l).
Definition document_panics (d : document) : Prop := panics_blocks 0 0 (d_blocks d).
End Panics.
