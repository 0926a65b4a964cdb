(** The block parser: /repo/src/parser/blocks/*.rs and
    /repo/src/parser/mod.rs.  Recursive calls ([block] on the content of a
    container) go through the argument [rec], tied with fuel at the end. *)
From Coq Require Import String.
From Verif Require Export ParserInline.
Import ListNotations.
Open Scope list_scope.

(** ** Leaf blocks *)

(** thematic_break.rs *)
Definition p_thematic_break : parser unit :=
  p_unit (line_terminated (preceded up_to_3_spaces
    (terminated (alt [many_ge 3 (chr "-"); many_ge 3 (chr "_"); many_ge 3 (chr "*")]) space0))).

(** code_block.rs:28-48 *)
Definition p_code_block_indented : parser code_block :=
  lines <- many1 (preceded (alt [p_unit (many_m_n 4 4 (chr " ")); p_unit (char_ c_tab)])
                           (line_terminated not_eof_or_eol0)) ;;
  ret (CodeBlock Indented (join [c_nl] lines)).
(** code_block.rs:50-91 *)
Definition p_ending_fence (fence : str) : parser unit :=
  p_unit (line_terminated (pair_ up_to_3_spaces (pair_ (tag fence) (many0 (char_ (hd 0%N fence)))))).
Definition p_code_block_fenced : parser code_block :=
  space_prefix <- up_to_3_spaces ;;
  let prefix_length := List.length space_prefix in
  ' (fence, info) <- line_terminated
      (pair_ (recognize (alt [many_ge 3 (char_ backtick); many_ge 3 (chr "~")]))
             (opt (recognize not_eof_or_eol1))) ;;
  lines <- many0 (preceded (peek (not_ (p_ending_fence fence)))
                    (preceded (many_m_n 0 prefix_length (chr " ")) (line_terminated not_eof_or_eol0))) ;;
  _ <- p_ending_fence fence ;;
  ret (CodeBlock (Fenced info) (join [c_nl] lines)).
(** code_block.rs:14-26 *)
Definition p_code_block : parser code_block := alt [p_code_block_indented; p_code_block_fenced].

(** heading.rs:14-43 *)
Definition p_heading_v1 (cfg : config) : parser heading :=
  prefix <- many_m_n 1 6 (chr "#") ;;
  _ <- (if allow_no_space_in_headings cfg then space0 else space1) ;;
  content <- line_terminated not_eof_or_eol1 ;;
  c <- nested (inline_many0 cfg) content ;;
  ret (Heading (Atx (N.of_nat (List.length prefix))) c).
(** heading.rs:69-86 *)
Definition p_heading_v2_level : parser setext_heading :=
  line_terminated (preceded up_to_3_spaces
    (terminated (alt [value Level1 (many1 (chr "=")); value Level2 (many1 (chr "-"))]) space0)).

(** link_definition.rs *)
Definition p_one_line_whitespace1 : parser str :=
  verify (recognize (many1 (alt [line_ending; space1])))
         (fun s => List.length (filter (N.eqb c_nl) s) <=? 1).
Definition p_link_definition (cfg : config) : parser link_definition :=
  label <- preceded up_to_3_spaces (p_link_label (inline_many1 cfg)) ;;
  _ <- chr ":" ;;
  _ <- pair_ space0 (pair_ (opt line_ending) space0) ;;
  destination <- p_link_destination ;;
  title <- opt (preceded p_one_line_whitespace1 p_link_title) ;;
  _ <- eof_or_eol ;;
  ret (LinkDefinition label destination title).

(** html_block.rs:35-56 and following: [many0(pair(peek(not(end)), anychar))] *)
Definition p_until {A} (end_ : parser A) : parser (list char) :=
  many0 (preceded (peek (not_ end_)) anychar).
(** html_block.rs:30-61 *)
Definition p_html_block1 : parser str :=
  let tag_variant := alt [tag_no_case (lit "script"); tag_no_case (lit "pre"); tag_no_case (lit "style")] in
  let end_ := delimited (tag (lit "</")) tag_variant (chr ">") in
  preceded up_to_3_spaces
    (recognize (pair_ (chr "<") (pair_ tag_variant
       (pair_ (alt [p_unit (chr " "); p_unit (chr ">"); p_unit line_ending])
          (pair_ (p_until end_) end_))))).
(** html_block.rs:63-75 *)
Definition p_html_block2 : parser str :=
  preceded up_to_3_spaces
    (recognize (pair_ (tag (lit "<!--")) (pair_ (p_until (tag (lit "-->"))) (tag (lit "-->"))))).
(** html_block.rs:77-89 *)
Definition p_html_block3 : parser str :=
  preceded up_to_3_spaces
    (recognize (pair_ (tag (lit "<?")) (pair_ (p_until (tag (lit "?>"))) (tag (lit "?>"))))).
(** html_block.rs:91-104 *)
Definition p_html_block4 : parser str :=
  preceded up_to_3_spaces
    (recognize (pair_ (tag (lit "<!")) (pair_ (satisfy is_upper)
       (pair_ (p_until (chr ">")) (tag (lit ">")))))).
(** html_block.rs:106-118 *)
Definition p_html_block5 : parser str :=
  preceded up_to_3_spaces
    (recognize (pair_ (tag (lit "<![CDATA[")) (pair_ (p_until (tag (lit "]]>"))) (tag (lit "]]>"))))).
(** html_block.rs:120-224; the nested tuples of [alt] are flattened.
    [tag_no_case] on non-ASCII input: only U+212A (Kelvin sign) lower-cases to
    an ASCII letter; it can only affect "blockquote", where the code then takes
    10 bytes and fails on what follows, exactly as the ASCII comparison does. *)
Definition html_block6_tags : list str :=
  map lit
  ["address"; "article"; "aside"; "base"; "basefont"; "blockquote"; "body"; "caption";
   "center"; "col"; "colgroup"; "dd"; "details"; "dialog"; "dir"; "div"; "dl"; "dt";
   "fieldset"; "figcaption"; "figure"; "footer"; "form"; "frame"; "frameset";
   "h1"; "h2"; "h3"; "h4"; "h5"; "h6"; "head"; "header"; "hr"; "html"; "iframe"; "legend";
   "li"; "link"; "main"; "menu"; "menuitem"; "nav"; "noframes"; "ol"; "optgroup";
   "option"; "p"; "param"; "section"; "source"; "summary"; "table"; "tbody"; "td";
   "tfoot"; "th"; "thead"; "title"; "tr"; "track"; "ul"]%string.
Definition p_html_block6 : parser str :=
  let end_ := alt [p_unit (terminated line_ending (pair_ space0 line_ending)); p_unit eof] in
  preceded up_to_3_spaces
    (recognize (pair_ (alt [p_unit (tag (lit "</")); p_unit (chr "<")])
       (pair_ (alt (map tag_no_case html_block6_tags))
         (pair_ (alt [p_unit (chr " "); p_unit line_ending; p_unit (tag (lit "/>")); p_unit (chr ">")])
           (pair_ (p_until end_) (opt line_ending)))))).
(** html_block.rs:272-281 [html_tag_name] *)
Definition p_html_tag_name : parser str :=
  recognize (pair_ alpha1 (many0 (alt [p_unit (chr "-"); p_unit alphanumeric1]))).
(** html_block.rs:292-332 attribute values; note the quoted forms hold exactly one character *)
Definition p_attr_unquoted : parser str :=
  recognize (many1 (preceded (peek (not_ (alt [p_unit space1; p_unit (one_of (c_quote :: lit "'=<>`"))]))) anychar)).
Definition p_attr_single : parser str :=
  recognize (delimited (chr "'") (preceded (peek (not_ (chr "'"))) anychar) (chr "'")).
Definition p_attr_double : parser str :=
  recognize (delimited (char_ c_quote) (preceded (peek (not_ (char_ c_quote))) anychar) (char_ c_quote)).
Definition p_attr_value : parser str := alt [p_attr_unquoted; p_attr_single; p_attr_double].
(** html_block.rs:274-300 *)
Definition p_attr_name : parser str :=
  recognize (pair_ (alt [p_unit alpha1; p_unit (one_of (lit "_:"))])
                   (many0 (alt [p_unit (one_of (lit "_.:-")); p_unit alphanumeric1]))).
Definition p_attr_value_spec : parser str :=
  recognize (pair_ space0 (pair_ (chr "=") (pair_ space0 p_attr_value))).
Definition p_html_tag_attribute : parser str :=
  recognize (pair_ space1 (pair_ p_attr_name (opt p_attr_value_spec))).
(** html_block.rs:252-270 *)
Definition eq_ignore_case (a b : str) : bool := str_eqb (map to_lower a) (map to_lower b).
Definition p_open_html_tag (restricted : list str) : parser str :=
  recognize (pair_ (chr "<")
    (pair_ (verify p_html_tag_name (fun s => negb (existsb (fun t => eq_ignore_case t s) restricted)))
      (pair_ (many0 p_html_tag_attribute) (pair_ space0 (pair_ (opt (chr "/")) (chr ">")))))).
(** html_block.rs:272-274 *)
Definition p_closing_html_tag : parser str :=
  recognize (pair_ (tag (lit "</")) (pair_ p_html_tag_name (pair_ space0 (chr ">")))).
(** html_block.rs:226-250 *)
Definition p_html_block7 : parser str :=
  let end_ := alt [p_unit (pair_ line_ending (pair_ space0 line_ending)); p_unit eof] in
  preceded up_to_3_spaces
    (recognize (pair_ (alt [p_open_html_tag (map lit ["script"; "pre"; "style"]%string); p_closing_html_tag])
       (pair_ (alt [p_unit line_ending; p_unit (chr " ")])
         (pair_ (p_until end_) end_)))).
(** html_block.rs:14-28 *)
Definition p_html_block : parser str :=
  alt [p_html_block1; p_html_block2; p_html_block3; p_html_block4; p_html_block5;
       p_html_block6; p_html_block7].

(** table.rs:112-136 [cell_content] *)
Definition p_cell_chars : parser str :=
  many1 (preceded (not_ (alt [p_unit eof_or_eol; p_unit (chr "|")]))
                  (alt [value (ch "|") (tag (lit "\|")); anychar])).
Definition p_cell_content (cfg : config) : parser (list inline) :=
  chars <- p_cell_chars ;; nested (inline_many0 cfg) (trim chars).
(** table.rs:94-110 [parse_table_row] *)
Definition p_table_row (cfg : config) : parser table_row :=
  line_terminated (preceded up_to_3_spaces
    (delimited (chr "|") (separated_list1 (chr "|") (p_cell_content cfg)) (opt (chr "|")))).
(** table.rs:62-92 [parse_alignment_row] *)
Definition cell_alignment (cell : str) : alignment :=
  let t := trim cell in
  match starts_with (lit ":") t, last_is (ch ":") t with
  | true, true => ACenter
  | true, false => ALeft
  | false, true => ARight
  | false, false => ANone
  end.
Definition p_alignment_row : parser (list alignment) :=
  let al := delimited space0
    (alt [recognize (delimited (chr ":") (many1 (chr "-")) (chr ":"));
          recognize (preceded (chr ":") (many1 (chr "-")));
          recognize (terminated (many1 (chr "-")) (chr ":"));
          recognize (many1 (chr "-"))]) space0 in
  line_terminated (preceded up_to_3_spaces
    (delimited (chr "|") (separated_list1 (chr "|") (pmap cell_alignment al)) (opt (chr "|")))).
(** table.rs:40-60 [parse_table_data_rows] *)
Definition resize_row (n : nat) (row : table_row) : table_row :=
  firstn n row ++ repeat [IText []] (n - List.length row).
(** table.rs:15-38 *)
Definition p_table (cfg : config) : parser table :=
  header <- p_table_row cfg ;;
  let col_count := List.length header in
  alignments <- p_alignment_row ;;
  if negb (List.length alignments =? col_count) then fail
  else rows <- many0 (pmap (resize_row col_count) (p_table_row cfg)) ;;
       ret (Table (header :: rows) alignments).

(** github_alert.rs:15-22 *)
Definition p_custom_alert_name : parser str :=
  recognize (pair_ alpha1 (many0 (satisfy (fun c => is_alnum c || N.eqb c (ch "_"))))).
(** [str::to_uppercase]: ASCII letters as such, other characters from the table *)
Definition to_uppercase (cfg : config) (s : str) : str :=
  flat_map (fun c => if is_ascii c then [to_upper_ascii c] else upper_table cfg c) s.
(** github_alert.rs:25-46 *)
Definition p_alert_marker : parser alert_type :=
  delimited (tag (lit "[!"))
    (alt [value Note (tag (lit "NOTE")); value Tip (tag (lit "TIP"));
          value Important (tag (lit "IMPORTANT")); value Warning (tag (lit "WARNING"));
          value Caution (tag (lit "CAUTION")); pmap Custom p_custom_alert_name])
    (tag (lit "]")).
Definition parse_alert_marker (cfg : config) (marker : str) : option alert_type :=
  match p_alert_marker (to_uppercase cfg (trim marker)) with
  | Ok [] t => Some t
  | _ => None
  end.

(** list.rs:15-52 *)
Definition p_task_state : parser task_state :=
  delimited (chr "[") (alt [value Complete (one_of (lit "xX")); value Incomplete (chr " ")]) (chr "]").
Definition p_marker_ordered : parser list_kind := pmap Ordered (terminated u64 (one_of (lit ".)"))).
Definition p_marker_star : parser list_kind := value (Bullet Star) (chr "*").
Definition p_marker_plus : parser list_kind := value (Bullet Plus) (chr "+").
Definition p_marker_dash : parser list_kind := value (Bullet Dash) (chr "-").
Definition p_list_marker : parser list_kind :=
  alt [p_marker_ordered; p_marker_star; p_marker_plus; p_marker_dash].
(** consumed characters (all ASCII, so also bytes) together with the value *)
Definition consumed {A} (p : parser A) : parser (A * nat) :=
  fun s => match p s with
           | Ok r a => Ok r (a, List.length s - List.length r)
           | Err => Err | Oof => Oof end.
(** list.rs:55-72 *)
Definition p_marker_spaces : parser (list_kind * nat * option task_state) :=
  ' (kind, n) <- consumed (delimited up_to_3_spaces p_list_marker (many_m_n 1 4 (chr " "))) ;;
  task <- opt (terminated p_task_state (chr " ")) ;;
  ret (kind, n, task).
(** list.rs:74-97 *)
Definition p_marker_newline : parser (list_kind * nat * option task_state) :=
  ' (kind, n) <- consumed (preceded up_to_3_spaces p_list_marker) ;;
  or_else (pmap (fun _ => (kind, n + 1, None)) (line_terminated space0))
    (' (_, m) <- consumed up_to_3_spaces ;;
     task <- line_terminated p_task_state ;;
     ret (kind, n + m + 1, Some task)).
(** list.rs:99-124 *)
Definition p_marker_with_span : parser (list_kind * nat * option task_state * str) :=
  alt [ pmap (fun x => (x, [])) p_marker_newline;
        pair_ p_marker_spaces (line_terminated not_eof_or_eol0) ].
Definition p_marker_of_kind (k : list_kind) : parser list_kind :=
  match k with
  | Ordered _ => p_marker_ordered
  | Bullet Star => p_marker_star
  | Bullet Plus => p_marker_plus
  | Bullet Dash => p_marker_dash
  end.
(** list.rs:126-182 *)
Definition p_rest_line (k : list_kind) (prefix_length : nat) : parser (list str) :=
  fun s => match s with
  | [] => Err
  | _ =>
    line_terminated
      (preceded
         (peek (not_ (alt [ p_thematic_break;
              p_unit (pair_ (verify (recognize (many_m_n 0 prefix_length (chr " ")))
                                    (fun indent => List.length indent <? prefix_length))
                            (p_marker_of_kind k)) ])))
         (alt [ preceded (many_m_n 0 prefix_length (chr " ")) (pmap (fun v => [v]) not_eof_or_eol1);
                pmap (fun '(newlines, content) => [newlines; content])
                  (pair_ (recognize (many1 (line_terminated space0)))
                         (preceded (many_m_n prefix_length prefix_length (chr " ")) not_eof_or_eol1)) ])) s
  end.

(** the [String::new() + push_str] content of list items and footnotes *)
Definition lines_content (first : str) (rest : list str) : str :=
  first ++ flat_map (fun l => c_nl :: l) rest.

(** blockquote.rs:16-20, github_alert.rs:53, 72: a quoted line *)
Definition p_quote_prefix : parser char := preceded up_to_3_spaces (chr ">").
Definition p_quote_lines : parser (list str) :=
  many1 (preceded p_quote_prefix (line_terminated not_eof_or_eol0)).

(** footnote_definition.rs:17-30: label, first line, continuation lines *)
Definition p_footnote_lines : parser (str * str) :=
  _ <- up_to_3_spaces ;;
  _ <- tag (lit "[^") ;;
  label <- recognize (many1 (verify (none_of (lit "]")) (fun c => negb (N.eqb c (ch "]"))))) ;;
  _ <- tag (lit "]:") ;;
  _ <- up_to_3_spaces ;;
  first <- line_terminated not_eof_or_eol1 ;;
  rest <- many0 (preceded (many_m_n 3 3 (chr " ")) (line_terminated not_eof_or_eol1)) ;;
  ret (label, lines_content first rest).

(** list.rs:200-221: marker, task state and content of an item *)
Definition p_list_item_lines : parser (list_kind * option task_state * str) :=
  ' (kind, n, task, first) <- p_marker_with_span ;;
  rest <- many0 (p_rest_line kind n) ;;
  ret (kind, task, lines_content first (map (@concat _) rest)).

(** blocks/mod.rs:117-131 [custom_parser] *)
Definition p_custom_block (cfg : config) : parser (list block) :=
  match custom_block cfg with Some p => p | None => fail end.

(** ** Containers *)
Section Rec.
  Variable cfg : config.
  (** [block] on the content of a container *)
  Variable rec : parser (list block).

  (** blockquote.rs *)
  Definition p_blockquote : parser (list block) :=
    lines <- p_quote_lines ;;
    pmap (@concat _) (nested (many1 rec) (join [c_nl] lines)).

  (** github_alert.rs:48-94 *)
  Definition p_github_alert : parser (list block) :=
    first_line <- peek (preceded (pair_ p_quote_prefix (opt (chr " "))) (line_terminated not_eof_or_eol0)) ;;
    match parse_alert_marker cfg (trim first_line) with
    | None => fail
    | Some ty =>
        lines <- p_quote_lines ;;
        let inner := join [c_nl] (tl lines) in
        blocks <- (match inner with
                   | [] => ret []
                   | _ => pmap (@concat _) (nested (many1 rec) inner)
                   end) ;;
        ret [BGitHubAlert (GitHubAlert ty blocks)]
    end.

  (** list.rs:200-230 *)
  Definition p_list_item : parser (list_kind * list_item) :=
    ' (kind, task, content) <- p_list_item_lines ;;
    blocks <- pmap (@concat _) (nested (many0 rec) content) ;;
    ret (kind, ListItem task blocks).
  (** list.rs:232-248 *)
  Definition p_list : parser mdlist :=
    items <- many1 p_list_item ;;
    match items with
    | [] => fail (* unreachable: [many1] *)
    | (kind, _) :: _ => ret (MkList kind (map snd items))
    end.

  (** footnote_definition.rs *)
  Definition p_footnote_definition : parser footnote_definition :=
    ' (label, content) <- p_footnote_lines ;;
    blocks <- pmap (@concat _) (nested (many0 rec) content) ;;
    ret (FootnoteDefinition label blocks).

  (** paragraph.rs:49-124 *)
  Definition p_is_paragraph_line_start : parser unit :=
    peek (not_ (alt
      [ conditional_unit (b_heading_v1 cfg) (p_unit (p_heading_v1 cfg));
        conditional_unit (b_heading_v2 cfg) (p_unit p_heading_v2_level);
        conditional_unit (b_thematic_break cfg) p_thematic_break;
        conditional_unit (b_blockquote cfg) (p_unit p_blockquote);
        conditional_unit (b_list cfg) (p_unit p_list_item);
        conditional_unit (b_code_block cfg) (p_unit p_code_block_fenced);
        conditional_unit (b_html_block cfg) (p_unit p_html_block);
        conditional_unit (b_link_definition cfg) (p_unit (p_link_definition cfg));
        conditional_unit (b_footnote_definition cfg) (p_unit p_footnote_definition);
        conditional_unit (b_table cfg) (p_unit (p_table cfg));
        p_unit (p_custom_block cfg);
        p_unit (line_terminated space0) ])).
  (** paragraph.rs:14-47 *)
  Definition p_paragraph (check_first_line : bool) : parser (list inline) :=
    lines <- (if check_first_line then ret []
              else pmap (fun l => [l]) (preceded up_to_3_spaces not_eof_or_eol1)) ;;
    rest_lines <- line_terminated
       (separated_list0 line_ending
          (preceded p_is_paragraph_line_start (preceded up_to_3_spaces not_eof_or_eol1))) ;;
    nested (inline_many1 cfg) (join [c_nl] (lines ++ rest_lines)).

  (** heading.rs:48-67 *)
  Definition p_heading_v2_or_paragraph : parser block :=
    content <- p_paragraph true ;;
    level <- opt p_heading_v2_level ;;
    ret (match level with
         | Some l => BHeading (Heading (Setext l) content)
         | None => BParagraph content
         end).

  (** blocks/mod.rs:24-115 *)
  Definition p_block : parser (list block) :=
    preceded many_empty_lines0
      (alt [ conditional_block (b_code_block cfg) (pmap BCodeBlock p_code_block);
             conditional_block (b_heading_v1 cfg) (pmap BHeading (p_heading_v1 cfg));
             conditional_block (b_heading_v2 cfg) p_heading_v2_or_paragraph;
             conditional_block (b_thematic_break cfg) (value BThematicBreak p_thematic_break);
             conditional_block_vec (b_github_alert cfg) p_github_alert;
             conditional_block (b_blockquote cfg) (pmap BBlockQuote p_blockquote);
             conditional_block (b_list cfg) (pmap BList p_list);
             conditional_block (b_html_block cfg) (pmap BHtmlBlock p_html_block);
             conditional_block (b_footnote_definition cfg) (pmap BFootnoteDefinition p_footnote_definition);
             conditional_block (b_link_definition cfg) (pmap BDefinition (p_link_definition cfg));
             conditional_block (b_table cfg) (pmap BTable (p_table cfg));
             p_custom_block cfg;
             conditional_block (b_paragraph cfg) (pmap BParagraph (p_paragraph false)) ]).
End Rec.

(** [block] with fuel *)
Fixpoint block_f (cfg : config) (fuel : nat) : parser (list block) :=
  match fuel with
  | O => fun _ => Oof
  | S f => p_block cfg (block_f cfg f)
  end.
Definition block_ (cfg : config) : parser (list block) :=
  fun s => block_f cfg (S (List.length s)) s.

(** mod.rs:179-194 [parse_markdown] *)
Definition p_document (b : parser (list block)) : parser document :=
  pmap (fun bs => Document (concat bs))
    (terminated (many0 b) (pair_ (many0 (alt [space1; line_ending])) eof)).
Definition parse_markdown (cfg : config) (input : str) : res document :=
  p_document (block_f cfg (S (List.length input))) input.
