(** /repo/src/printer: rendering a document back to Markdown.  Documents are
    built with [pretty] (Pretty.v).  A Rust panic is the document [DPanic] while
    building, and [None] when rendering.  Arithmetic is that of a debug build:
    overflow and underflow panic.  Running out of memory (absurd widths of
    [str::repeat]) is not modelled. *)
From Coq Require Import String.
From Verif Require Export Ast Pretty HtmlPrinter LatexPrinter.
Import ListNotations.
Open Scope list_scope.

(** printer/config.rs:2-6 *)
Record md_config := MdConfig {
  md_width : nat; md_spaces_before_list_item : nat; md_empty_line_before_list : bool }.
(** config.rs:8-16 *)
Definition md_default : md_config := MdConfig 80 1 true.
(** config.rs:20-22, 36-41, 46-51 *)
Definition with_width (c : md_config) (w : nat) : md_config :=
  MdConfig w (md_spaces_before_list_item c) (md_empty_line_before_list c).
Definition with_spaces_before_list_item (c : md_config) (n : nat) : md_config :=
  MdConfig (md_width c) n (md_empty_line_before_list c).
Definition with_empty_line_before_list (c : md_config) (b : bool) : md_config :=
  MdConfig (md_width c) (md_spaces_before_list_item c) b.

(** [str::lines]: the lines, without their "\n" or "\r\n"; a final line without
    "\n" counts if it is not empty (its "\r" stays).  [cur] is the line being
    read, reversed. *)
Fixpoint lines_go (cur : str) (s : str) : list str :=
  match s with
  | [] => match cur with [] => [] | _ => [rev cur] end
  | c :: s' =>
      if N.eqb c c_nl
      then rev (match cur with d :: t => if N.eqb d c_cr then t else cur | [] => cur end) :: lines_go [] s'
      else lines_go (c :: cur) s'
  end.
Definition lines (s : str) : list str := lines_go [] s.

Section Md.
(** Unicode data: display width of non-ASCII text, upper case and decimal
    digits (regex [\d]) beyond ASCII.  [big] stands for [usize::MAX], the width
    used to render cells and tables; nothing depends on its value. *)
Variable uwidth : str -> nat.
Variable upper : char -> str.
Variable udigit : char -> bool.
Variable big : nat.

(** markdown_syntax_detector.rs:11-30, the three regular expressions *)
Definition regex_digit (c : char) : bool := is_digit c || (negb (is_ascii c) && udigit c).
Fixpoint digits_dot (s : str) : bool := (* \d*\.$ *)
  match s with
  | [] => false
  | [c] => N.eqb c (ch ".")
  | c :: s' => regex_digit c && digits_dot s'
  end.
Definition ordered_list_regex (s : str) : bool :=
  match s with c :: s' => regex_digit c && digits_dot s' | [] => false end.
Definition all_at_least (n : nat) (c : char) (s : str) : bool :=
  (n <=? List.length s) && forallb (N.eqb c) s.
Definition horizontal_rule_regex (s : str) : bool :=
  all_at_least 3 (ch "-") s || all_at_least 3 (ch "*") s || all_at_least 3 (ch "_") s.
Definition code_fence_regex (s : str) : bool :=
  starts_with (lit "```") s || starts_with (lit "~~~~") s.
(** markdown_syntax_detector.rs:8-9, 45-86 *)
Definition is_markdown_syntax_at_line_start (word : str) : bool :=
  match word with
  | [] => false
  | c :: _ =>
      if (byte_len word =? 1) then
        N.eqb c c_tab || existsb (N.eqb c) (lit "-*+#>|")
      else
        (N.eqb c (ch "#") && forallb (N.eqb (ch "#")) word)
        || ordered_list_regex word || horizontal_rule_regex word || code_fence_regex word
        || starts_with (lit "    ") word || N.eqb c c_tab
  end.
(** markdown_syntax_detector.rs:100-102 *)
Definition is_safe_line_break_before (w : str) : bool := negb (is_markdown_syntax_at_line_start w).

(** inline.rs:216-219 [find_next_word] *)
Fixpoint find_next_word (l : list (option str)) : option str :=
  match l with
  | [] => None
  | Some w :: _ => Some w
  | None :: l' => find_next_word l'
  end.
(** inline.rs:163-205 [safe_text_layout] *)
Fixpoint safe_text_go (l : list (option str)) (result : doc) : doc :=
  match l with
  | [] => result
  | Some word :: l' => safe_text_go l' (append result (DText word))
  | None :: l' =>
      let separator :=
        match find_next_word l' with
        | Some w => if is_safe_line_break_before w then softline else space
        | None => softline
        end in
      safe_text_go l' (append result separator)
  end.
Definition safe_text_layout (l : list (option str)) : doc := safe_text_go l DNil.

(** inline.rs:27-123; [split_with_spaces] (inline.rs:126-150) is the same
    function as in the LaTeX printer. *)
Fixpoint md_inline (allow_newlines : bool) (i : inline) : doc :=
  let children l := concat_docs (map (md_inline allow_newlines) l) in
  let quoted title := lit " """ ++ title ++ lit """" in
  match i with
  | IText t =>
      let words_or_spaces := split_with_spaces (nl_to_sp t) in
      if allow_newlines then safe_text_layout words_or_spaces
      else concat_docs (map (fun v => match v with Some w => DText w | None => space end) words_or_spaces)
  | ILineBreak => DText (lit "  " ++ [c_nl])
  | ICode code => append (append (DText (lit "`")) (DText code)) (DText (lit "`"))
  | IHtml html => DText html
  | IEmphasis c => append (append (DText (lit "*")) (children c)) (DText (lit "*"))
  | IStrong c => append (append (DText (lit "**")) (children c)) (DText (lit "**"))
  | IStrikethrough c => append (append (DText (lit "~~")) (children c)) (DText (lit "~~"))
  | ILink l =>
      let title := match link_title l with
        | Some v => append (append (DText (lit " """)) (DText v)) (DText (lit """"))
        | None => DNil
        end in
      append (append (append (append (append (DText (lit "[")) (children (link_children l)))
        (DText (lit "]("))) (DText (link_destination l))) title) (DText (lit ")"))
  | IImage im =>
      let title_part := match image_title im with Some t => quoted t | None => [] end in
      append (append (append (append (append (DText (lit "![")) (DText (image_alt im))) (DText (lit "](")))
        (DText (image_destination im))) (DText title_part)) (DText (lit ")"))
  | IAutolink link => DText (lit "<" ++ link ++ lit ">")
  | IFootnoteReference label => DText (lit "[^" ++ label ++ lit "]")
  | IEmpty => DNil
  | ILinkReference v =>
      if list_eqb inline_eqb (lr_label v) (lr_text v)
      then append (append (DText (lit "[")) (children (lr_label v))) (DText (lit "]"))
      else append (append (append (append (DText (lit "[")) (children (lr_text v))) (DText (lit "][")))
             (children (lr_label v))) (DText (lit "]"))
  end.
(** inline.rs:13-25 *)
Definition md_inlines (allow_newlines : bool) (l : list inline) : doc :=
  concat_docs (map (md_inline allow_newlines) l).

(** heading.rs *)
Definition md_heading (h : heading) : doc :=
  match h_kind h with
  | Atx level => append (append (DText (rep (N.to_nat level) (ch "#"))) space) (md_inlines false (h_content h))
  | Setext Level1 => append (append (md_inlines true (h_content h)) DHardline) (DText (lit "=========="))
  | Setext Level2 => append (append (md_inlines true (h_content h)) DHardline) (DText (lit "----------"))
  end.

(** ** table.rs.  [None]: a panic. *)
(** table.rs:192-200 [render_cell] *)
Definition render_cell (c : list inline) : option str := render uwidth big (md_inlines false c).
Fixpoint all_some {A} (l : list (option A)) : option (list A) :=
  match l with
  | [] => Some []
  | Some x :: l' => option_map (cons x) (all_some l')
  | None :: _ => None
  end.
(** table.rs:178-190 [table_content] *)
Definition table_content (t : table) : option (list (list str)) :=
  all_some (map (fun row => all_some (map render_cell row)) (t_rows t)).
(** table.rs:164-176 [column_content_width] *)
Definition column_content_width (content : list (list str)) (i : nat) : nat :=
  fold_left (fun max_width row =>
    match nth_error row i with
    | Some cell => if max_width <? List.length cell then List.length cell else max_width
    | None => max_width
    end) content 0.
(** table.rs:147-162 [column_width] *)
Definition column_width (content : list (list str)) (alignments : list alignment) (i : nat) : nat :=
  let content_width := column_content_width content i in
  let alignment_width := match nth_error alignments i with
    | Some ALeft => 1 | Some ACenter => 3 | Some ARight => 2 | Some ANone => 1 | None => 1 end in
  if alignment_width <? content_width then content_width else alignment_width.
(** table.rs:138-145 [columns_width]; [table[0]] exists, as rows are not empty *)
Definition columns_width (content : list (list str)) (alignments : list alignment) : list nat :=
  map (column_width content alignments) (seq 0 (List.length (hd [] content))).
(** table.rs:105-136 [cell_to_doc]: [column_width - chars] underflows if the cell is wider *)
Definition cell_to_doc (cell : str) (width : nat) (al : alignment) : doc :=
  if width <? List.length cell then DPanic
  else
    let padding := width - List.length cell in
    DText (match al with
           | ANone | ALeft => cell ++ rep padding c_sp
           | ACenter => let left_padding := padding / 2 in
                        rep left_padding c_sp ++ cell ++ rep (padding - left_padding) c_sp
           | ARight => rep padding c_sp ++ cell
           end).
(** table.rs:56-84 [alignment_to_doc] *)
Definition alignment_to_doc (al : alignment) (width : nat) : doc :=
  match al with
  | ANone | ALeft => DText (rep (if 1 <? width then width else 1) (ch "-"))
  | ACenter => append (append (DText (lit ":")) (DText (rep (if 2 <? width then width - 2 else 1) (ch "-")))) (DText (lit ":"))
  | ARight => append (DText (rep (if 1 <? width then width - 1 else 1) (ch "-"))) (DText (lit ":"))
  end.
(** the loops of table.rs:40-54, 86-103: [f i x] for each element, " | " between *)
Fixpoint row_go {A} (f : nat -> A -> doc) (i : nat) (l : list A) (acc : doc) : doc :=
  match l with
  | [] => acc
  | x :: l' => row_go f (S i) l' (append (if 0 <? i then append acc (DText (lit " | ")) else acc) (f i x))
  end.
Definition nth_width (widths : list nat) (i : nat) : nat := nth i widths 3.
Definition row_to_doc (row : list str) (widths : list nat) (als : list alignment) : doc :=
  append (row_go (fun i cell => cell_to_doc cell (nth_width widths i) (nth i als ANone)) 0 row (DText (lit "| ")))
    (DText (lit " |")).
Definition alignments_row_to_doc (als : list alignment) (widths : list nat) : doc :=
  append (row_go (fun i al => alignment_to_doc al (nth_width widths i)) 0 als (DText (lit "| "))) (DText (lit " |")).
(** table.rs:7-38 *)
Definition md_table (t : table) : doc :=
  match t_rows t with
  | [] => DNil
  | _ =>
      match table_content t with
      | None => DPanic
      | Some content =>
          let widths := columns_width content (t_alignments t) in
          let header := row_to_doc (hd [] content) widths (t_alignments t) in
          let separator := alignments_row_to_doc (t_alignments t) widths in
          let body := map (fun row => row_to_doc row widths (t_alignments t)) (tl content) in
          match render uwidth big (intersperse (header :: separator :: body) DHardline) with
          | Some s => DText s
          | None => DPanic
          end
      end
  end.

(** [str::to_uppercase] and github_alert.rs:6-18 [as_markdown_str] *)
Definition uppercase (s : str) : str :=
  flat_map (fun c => if is_ascii c then [to_upper_ascii c] else upper c) s.
Definition as_markdown_str (t : alert_type) : str :=
  match t with
  | Note => lit "note" | Tip => lit "tip" | Important => lit "important"
  | Warning => lit "warning" | Caution => lit "caution" | Custom s => s
  end.

Section Blocks.
Variable config : md_config.

(** block.rs:17-42: the loop, over the blocks and their documents; block.rs appends the
    separators one at a time *)
Fixpoint blocks_go (acc : doc) (first : bool) (l : list (block * doc)) : doc :=
  match l with
  | [] => acc
  | (b, d) :: l' =>
      let acc :=
        if first then acc
        else match b with
             | BList _ => if md_empty_line_before_list config then append (append acc DHardline) DHardline else append acc DHardline
             | _ => append (append acc DHardline) DHardline
             end in
      blocks_go (append acc d) false l'
  end.
Definition blocks_doc (l : list (block * doc)) : doc := blocks_go DNil true l.

(** list.rs:30-40: the marker of item number [counter] *)
Definition item_marker (k : list_kind) (counter : N) : str :=
  match k with
  | Bullet Dash => lit "-"
  | Bullet Star => lit "*"
  | Bullet Plus => lit "+"
  | Ordered _ => dec counter ++ lit "."
  end.
(** list.rs:42-59 *)
Definition item_doc (k : list_kind) (counter : N) (prefix_length : nat) (task : option task_state) (blocks : doc) : doc :=
  let task_list_marker := match task with
    | Some Complete => append (DText (lit "[X]")) space
    | Some Incomplete => append (DText (lit "[ ]")) space
    | None => DNil
    end in
  append (append (append (append (DText (rep (md_spaces_before_list_item config) c_sp)) (DText (item_marker k counter))) space)
    task_list_marker) (group (nest prefix_length blocks)).
(** list.rs:29-60, the closure run on each item; [counter += 1] may overflow *)
Fixpoint items_go (k : list_kind) (counter : N) (prefix_length : nat) (l : list (option task_state * doc)) : list doc :=
  match l with
  | [] => []
  | (task, blocks) :: l' =>
      let d := item_doc k counter prefix_length task blocks in
      match k with
      | Ordered _ => if (counter <? u64_max)%N then d :: items_go k (counter + 1) prefix_length l' else [DPanic]
      | Bullet _ => d :: items_go k counter prefix_length l'
      end
  end.
(** list.rs:7-62; [v.start + len - 1] may over- or underflow *)
Definition md_list (k : list_kind) (items : list (option task_state * doc)) : doc :=
  let spaces := md_spaces_before_list_item config in
  match k with
  | Bullet _ => intersperse (items_go k 0 (2 + spaces) items) DHardline
  | Ordered start =>
      let total := (start + N.of_nat (List.length items))%N in
      if (u64_max <? total)%N || N.eqb total 0 then DPanic
      else
        let digits := List.length (dec (total - 1)) in
        intersperse (items_go k start (digits + 2 + spaces) items) DHardline
  end.

(** blockquote.rs:13-29, at the current column *)
Definition quote_at (inner : doc) (current_column : nat) : doc :=
  if (md_width config <? current_column + 2) then DPanic
  else match render uwidth (md_width config - current_column - 2) inner with
       | None => DPanic
       | Some text =>
           intersperse (map (fun d => append (DText (lit "> ")) (DText d)) (lines text)) DHardline
       end.

(** github_alert.rs:21-51; the content is rendered at width 80 *)
Definition alert_line (line : str) : str :=
  match line with
  | [] => lit ">"
  | _ => if forallb is_whitespace line then lit ">" else lit "> " ++ line
  end.
Definition md_alert (t : alert_type) (has_blocks : bool) (content : doc) : doc :=
  let marker := lit "> [!" ++ uppercase (as_markdown_str t) ++ lit "]" in
  if has_blocks then
    match render uwidth 80 content with
    | None => DPanic
    | Some text => intersperse (map DText (marker :: map alert_line (lines text))) DHardline
    end
  else intersperse (map DText [marker]) DHardline.

(** block.rs:46-102; [format!("{}{}", destination, title)] *)
Definition md_definition (def : link_definition) : doc :=
  append (append (append (DText (lit "[")) (md_inlines true (ld_label def))) (DText (lit "]: ")))
    (DText (ld_destination def ++ match ld_title def with Some t => lit " """ ++ t ++ lit """" | None => [] end)).
Definition md_code_block (c : code_block) : doc :=
  match c with
  | CodeBlock (Fenced info) literal =>
      append (append (DText (lit "```" ++ match info with Some i => i | None => [] end ++ [c_nl])) (DText literal))
        (DText (c_nl :: lit "```"))
  | CodeBlock Indented literal => DText (join [c_nl] (map (fun l => lit "    " ++ l) (lines literal)))
  end.
Fixpoint md_block (b : block) : doc :=
  let blocks l := blocks_doc (map (fun x => (x, md_block x)) l) in
  match b with
  | BParagraph inlines => md_inlines true inlines
  | BHeading v => md_heading v
  | BThematicBreak => DText (lit "---")
  | BBlockQuote inner => DColumn (quote_at (blocks inner))
  | BList v => md_list (l_kind v) (map (fun it => (li_task it, blocks (li_blocks it))) (l_items v))
  | BCodeBlock c => md_code_block c
  | BHtmlBlock html => DText html
  | BDefinition def => md_definition def
  | BEmpty => DNil
  | BTable v => md_table v
  | BFootnoteDefinition def => append (DText (lit "[^" ++ fd_label def ++ lit "]: ")) (blocks (fd_blocks def))
  | BGitHubAlert a =>
      md_alert (ga_type a) (match ga_blocks a with [] => false | _ => true end) (blocks (ga_blocks a))
  end.
Definition md_blocks (l : list block) : doc := blocks_doc (map (fun x => (x, md_block x)) l).
End Blocks.

(** mod.rs:122-130 [render_markdown] *)
Definition render_markdown (ast : document) (config : md_config) : option str :=
  render uwidth (md_width config) (md_blocks config (d_blocks ast)).
End Md.
