(** The parser with stateful user closures: the definitions of
    [ParserConfig.v], [ParserInline.v] and [ParserBlock.v] that reach user
    code, with the state threaded through.  Everything that runs no user code
    is the pure parser of those files, [lift]ed. *)
From Coq Require Import String.
From Verif Require Export EffNom ParserBlock.
Import ListNotations.
Open Scope list_scope.

(** config.rs:30-60 [ElementBehavior]: [Map] and [FlatMap] hold
    [Rc<RefCell<Box<dyn FnMut(ELT) -> ..>>>]; the state of the closure is part
    of [W].  Panicking closures are not modelled. *)
Inductive ebehavior (W A : Type) :=
| EParse | EIgnore | ESkip | EMap (f : A -> W -> A * W) | EFlatMap (f : A -> W -> list A * W).
Arguments EParse {W A}. Arguments EIgnore {W A}. Arguments ESkip {W A}.
Arguments EMap {W A}. Arguments EFlatMap {W A}.

(** config.rs:62-160 [MarkdownParserConfig] (see [ParserConfig.config]) *)
Record econfig (W : Type) := EConfig {
  e_allow_no_space_in_headings : bool;
  e_html_entities : str -> option str;
  eb_blockquote : ebehavior W block;
  eb_github_alert : ebehavior W block;
  eb_heading_v1 : ebehavior W block;
  eb_heading_v2 : ebehavior W block;
  eb_thematic_break : ebehavior W block;
  eb_list : ebehavior W block;
  eb_code_block : ebehavior W block;
  eb_html_block : ebehavior W block;
  eb_footnote_definition : ebehavior W block;
  eb_link_definition : ebehavior W block;
  eb_table : ebehavior W block;
  eb_paragraph : ebehavior W block;
  ei_autolink : ebehavior W inline;
  ei_link : ebehavior W inline;
  ei_footnote_reference : ebehavior W inline;
  ei_reference_link : ebehavior W inline;
  ei_hard_newline : ebehavior W inline;
  ei_image : ebehavior W inline;
  ei_code_span : ebehavior W inline;
  ei_emphasis : ebehavior W inline;
  ei_strikethrough : ebehavior W inline;
  ei_text : ebehavior W inline;
  e_custom_block : option (eparser W (list block));
  e_custom_inline : option (eparser W (list inline));
  e_punct_table : char -> bool;
  e_upper_table : char -> str
}.
Arguments e_allow_no_space_in_headings {W}. Arguments e_html_entities {W}.
Arguments eb_blockquote {W}. Arguments eb_github_alert {W}. Arguments eb_heading_v1 {W}.
Arguments eb_heading_v2 {W}. Arguments eb_thematic_break {W}. Arguments eb_list {W}.
Arguments eb_code_block {W}. Arguments eb_html_block {W}. Arguments eb_footnote_definition {W}.
Arguments eb_link_definition {W}. Arguments eb_table {W}. Arguments eb_paragraph {W}.
Arguments ei_autolink {W}. Arguments ei_link {W}. Arguments ei_footnote_reference {W}.
Arguments ei_reference_link {W}. Arguments ei_hard_newline {W}. Arguments ei_image {W}.
Arguments ei_code_span {W}. Arguments ei_emphasis {W}. Arguments ei_strikethrough {W}.
Arguments ei_text {W}. Arguments e_custom_block {W}. Arguments e_custom_inline {W}.
Arguments e_punct_table {W}. Arguments e_upper_table {W}.

(** util.rs:53-82 [conditional]: the closure runs after the element has been
    parsed *)
Definition econditional {W A} (b : ebehavior W A) (default : list A) (inner : eparser W A) : eparser W (list A) :=
  match b with
  | EIgnore => efail
  | EParse => emap (fun v => [v]) inner
  | ESkip => evalue default inner
  | EMap f => emap (fun v => [v]) (erun f inner)
  | EFlatMap f => erun f inner
  end.
(** util.rs:84-124 *)
Definition econditional_unit {W A} (b : ebehavior W A) (inner : eparser W unit) : eparser W unit :=
  match b with EIgnore => efail | _ => inner end.
(** util.rs:126-150 *)
Definition econditional_block {W} (b : ebehavior W block) (p : eparser W block) := econditional b [BEmpty] p.
Definition econditional_inline {W} (b : ebehavior W inline) (p : eparser W inline) := econditional b [IEmpty] p.
(** util.rs:152-177 *)
Definition econditional_block_vec {W} (b : ebehavior W block) (p : eparser W (list block)) : eparser W (list block) :=
  match b with
  | EIgnore => efail
  | ESkip => evalue [BEmpty] p
  | EParse | EMap _ | EFlatMap _ => p
  end.
Definition ep_unit {W A} (p : eparser W A) : eparser W unit := evalue tt p.
Definition eline_terminated {W A} (p : eparser W A) : eparser W A := eterminated p (lift eof_or_eol).

(** The part of a configuration that is not user code, for the pure parsers
    that look at it (entities, punctuation, upper case, headings) *)
Definition plain_config {W} (E : econfig W) : config :=
  {| allow_no_space_in_headings := e_allow_no_space_in_headings E;
     html_entities := e_html_entities E;
     b_blockquote := Parse; b_github_alert := Parse; b_heading_v1 := Parse;
     b_heading_v2 := Parse; b_thematic_break := Parse; b_list := Parse;
     b_code_block := Parse; b_html_block := Parse; b_footnote_definition := Parse;
     b_link_definition := Parse; b_table := Parse; b_paragraph := Parse;
     i_autolink := Parse; i_link := Parse; i_footnote_reference := Parse;
     i_reference_link := Parse; i_hard_newline := Parse; i_image := Parse;
     i_code_span := Parse; i_emphasis := Parse; i_strikethrough := Parse; i_text := Parse;
     custom_block := None; custom_inline := None;
     punct_table := e_punct_table E; upper_table := e_upper_table E |}.

Section Inline.
  Context {W : Type}.
  Variable E : econfig W.
  Variable rec : eparser W (list inline).
  Notation C := (plain_config E).

  (** link_util.rs:15-41: the content is parsed before the closing bracket is
      looked for *)
  Definition ep_link_label : eparser W (list inline) :=
    edelimited (lift (tag (lit "["))) (l <~ lift p_label_chars ;; enested rec l) (lift (tag (lit "]"))).
  (** inline_link.rs *)
  Definition ep_inline_link : eparser W link :=
    children <~ ep_link_label ;;
    ' (d, t) <~ lift p_link_tail ;;
    eret (Link d t children).
  (** reference_link.rs *)
  Definition ep_reference_link : eparser W inline :=
    ealt [ (text <~ ep_link_label ;; label <~ ep_link_label ;; eret (ILinkReference (LinkReference label text)));
           emap (fun text => ILinkReference (LinkReference text text)) (eterminated ep_link_label (lift (tag (lit "[]"))));
           emap (fun text => ILinkReference (LinkReference text text)) ep_link_label ].
  (** emphasis.rs:68-91 *)
  Definition ep_emphasis_content (close_tag : parser unit) : eparser W (list inline) :=
    content <~ lift (recognize (many1 (preceded (peek (not_ close_tag))
                                         (alt [p_unit (tag (lit "\*")); p_unit anychar])))) ;;
    enested rec content.
  Definition ep_emph (t : str) : eparser W (list inline) :=
    edelimited (lift (p_open_tag C t)) (ep_emphasis_content (p_close_tag C t)) (lift (p_close_tag C t)).
  (** emphasis.rs:14-66 *)
  Definition ep_emphasis : eparser W inline :=
    ealt [ emap (fun inner => IStrong [IEmphasis inner]) (ealt [ep_emph (lit "***"); ep_emph (lit "___")]);
           emap IStrong (ealt [ep_emph (lit "**"); ep_emph (lit "__")]);
           emap IEmphasis (ealt [ep_emph (lit "*"); ep_emph (lit "_")]) ].
  (** strikethrough.rs *)
  Definition ep_strikethrough : eparser W inline :=
    _ <~ lift (terminated (tag (lit "~~")) (peek (not_ (chr "~")))) ;;
    content <~ lift (recognize (many1 (preceded
        (peek (not_ (preceded (peek (not_ (pair_ (tag (lit "~~")) (chr "~")))) (tag (lit "~~")))))
        (alt [value (ch "~") (tag (lit "\~")); anychar])))) ;;
    _ <~ lift (tag (lit "~~")) ;;
    emap IStrikethrough (enested rec content).
  (** text.rs:41-114 *)
  Definition ep_not_a_text : eparser W unit :=
    ealt [ econditional_unit (ei_autolink E) (lift (p_unit p_autolink));
           econditional_unit (ei_reference_link E) (ep_unit ep_reference_link);
           econditional_unit (ei_hard_newline E) (lift (p_unit p_hard_newline));
           econditional_unit (ei_text E) (lift (p_unit (p_html_entity C)));
           econditional_unit (ei_image E) (lift (p_unit p_image));
           econditional_unit (ei_link E) (ep_unit ep_inline_link);
           econditional_unit (ei_code_span E) (lift (p_unit p_code_span));
           econditional_unit (ei_emphasis E) (ep_unit ep_emphasis);
           econditional_unit (ei_footnote_reference E) (lift (p_unit p_footnote_reference));
           econditional_unit (ei_strikethrough E) (ep_unit ep_strikethrough);
           lift (p_unit p_environment_variable) ].
  (** text.rs:12-33 *)
  Definition ep_text_run : eparser W str :=
    erecognize (emany1 (epreceded (epeek (enot ep_not_a_text)) (lift anychar))).
  Definition ep_text : eparser W inline :=
    emap (fun l => IText (concat l))
      (emany1 (ealt [lift (pmap (fun c => [c]) p_escaped_char); lift (p_html_entity C); ep_text_run])).
  (** inline/mod.rs:140-151 *)
  Definition ep_custom_inline : eparser W (list inline) :=
    match e_custom_inline E with Some p => p | None => efail end.
  (** inline/mod.rs:83-138 *)
  Definition ep_inline : eparser W (list inline) :=
    ealt [ econditional_inline (ei_autolink E) (lift (pmap IAutolink p_autolink));
           econditional_inline (ei_link E) (emap ILink ep_inline_link);
           econditional_inline (ei_footnote_reference E) (lift p_footnote_reference);
           econditional_inline (ei_reference_link E) ep_reference_link;
           econditional_inline (ei_hard_newline E) (lift p_hard_newline);
           econditional_inline (ei_image E) (lift p_image);
           econditional_inline (ei_code_span E) (lift (pmap ICode p_code_span));
           lift (pmap (fun v => [v]) p_environment_variable);
           econditional_inline (ei_emphasis E) ep_emphasis;
           econditional_inline (ei_strikethrough E) ep_strikethrough;
           ep_custom_inline;
           econditional_inline (ei_text E) ep_text ].
End Inline.

(** inline/mod.rs:72-81 *)
Fixpoint einline_many1_f {W} (E : econfig W) (fuel : nat) : eparser W (list inline) :=
  match fuel with
  | O => fun _ w => (Oof, w)
  | S f => emap (fun ll => merge_consecutive_text_elements (concat ll))
                (emany1 (ep_inline E (einline_many1_f E f)))
  end.
Definition einline_many1 {W} (E : econfig W) : eparser W (list inline) :=
  fun s w => einline_many1_f E (S (List.length s)) s w.
(** inline/mod.rs:61-70 *)
Definition einline_many0 {W} (E : econfig W) : eparser W (list inline) :=
  fun s w => emap (fun ll => merge_consecutive_text_elements (concat ll))
                (emany0 (ep_inline E (einline_many1_f E (List.length s)))) s w.

Section Block.
  Context {W : Type}.
  Variable E : econfig W.
  Notation C := (plain_config E).

  (** heading.rs:14-43 *)
  Definition ep_heading_v1 : eparser W heading :=
    prefix <~ lift (many_m_n 1 6 (chr "#")) ;;
    _ <~ lift (if e_allow_no_space_in_headings E then space0 else space1) ;;
    content <~ lift (line_terminated not_eof_or_eol1) ;;
    c <~ enested (einline_many0 E) content ;;
    eret (Heading (Atx (N.of_nat (List.length prefix))) c).
  (** link_definition.rs *)
  Definition ep_link_definition : eparser W link_definition :=
    label <~ epreceded (lift up_to_3_spaces) (ep_link_label (einline_many1 E)) ;;
    _ <~ lift (chr ":") ;;
    _ <~ lift (pair_ space0 (pair_ (opt line_ending) space0)) ;;
    destination <~ lift p_link_destination ;;
    title <~ lift (opt (preceded p_one_line_whitespace1 p_link_title)) ;;
    _ <~ lift eof_or_eol ;;
    eret (LinkDefinition label destination title).
  (** table.rs:112-136 *)
  Definition ep_cell_content : eparser W (list inline) :=
    chars <~ lift p_cell_chars ;; enested (einline_many0 E) (trim chars).
  (** table.rs:94-110 *)
  Definition ep_table_row : eparser W table_row :=
    eline_terminated (epreceded (lift up_to_3_spaces)
      (edelimited (lift (chr "|")) (eseparated_list1 (lift (chr "|")) ep_cell_content) (lift (opt (chr "|"))))).
  (** table.rs:15-38 *)
  Definition ep_table : eparser W table :=
    header <~ ep_table_row ;;
    alignments <~ lift p_alignment_row ;;
    if negb (List.length alignments =? List.length header) then efail
    else rows <~ emany0 (emap (resize_row (List.length header)) ep_table_row) ;;
         eret (Table (header :: rows) alignments).
  (** blocks/mod.rs:117-131 *)
  Definition ep_custom_block : eparser W (list block) :=
    match e_custom_block E with Some p => p | None => efail end.

  Variable rec : eparser W (list block).
  (** blockquote.rs *)
  Definition ep_blockquote : eparser W (list block) :=
    lines <~ lift p_quote_lines ;;
    emap (@concat _) (enested (emany1 rec) (join [c_nl] lines)).
  (** github_alert.rs:48-94 *)
  Definition ep_github_alert : eparser W (list block) :=
    first_line <~ lift (peek (preceded (pair_ p_quote_prefix (opt (chr " "))) (line_terminated not_eof_or_eol0))) ;;
    match parse_alert_marker C (trim first_line) with
    | None => efail
    | Some ty =>
        lines <~ lift p_quote_lines ;;
        blocks <~ (match join [c_nl] (tl lines) with
                   | [] => eret []
                   | _ => emap (@concat _) (enested (emany1 rec) (join [c_nl] (tl lines)))
                   end) ;;
        eret [BGitHubAlert (GitHubAlert ty blocks)]
    end.
  (** list.rs:200-230 *)
  Definition ep_list_item : eparser W (list_kind * list_item) :=
    ' (kind, task, content) <~ lift p_list_item_lines ;;
    blocks <~ emap (@concat _) (enested (emany0 rec) content) ;;
    eret (kind, ListItem task blocks).
  (** list.rs:232-248 *)
  Definition ep_list : eparser W mdlist :=
    items <~ emany1 ep_list_item ;;
    match items with
    | [] => efail
    | (kind, _) :: _ => eret (MkList kind (map snd items))
    end.
  (** footnote_definition.rs *)
  Definition ep_footnote_definition : eparser W footnote_definition :=
    ' (label, content) <~ lift p_footnote_lines ;;
    blocks <~ emap (@concat _) (enested (emany0 rec) content) ;;
    eret (FootnoteDefinition label blocks).
  (** paragraph.rs:49-124 *)
  Definition ep_is_paragraph_line_start : eparser W unit :=
    epeek (enot (ealt
      [ econditional_unit (eb_heading_v1 E) (ep_unit ep_heading_v1);
        econditional_unit (eb_heading_v2 E) (lift (p_unit p_heading_v2_level));
        econditional_unit (eb_thematic_break E) (lift p_thematic_break);
        econditional_unit (eb_blockquote E) (ep_unit ep_blockquote);
        econditional_unit (eb_list E) (ep_unit ep_list_item);
        econditional_unit (eb_code_block E) (lift (p_unit p_code_block_fenced));
        econditional_unit (eb_html_block E) (lift (p_unit p_html_block));
        econditional_unit (eb_link_definition E) (ep_unit ep_link_definition);
        econditional_unit (eb_footnote_definition E) (ep_unit ep_footnote_definition);
        econditional_unit (eb_table E) (ep_unit ep_table);
        ep_unit ep_custom_block;
        lift (p_unit (line_terminated space0)) ])).
  (** paragraph.rs:14-47 *)
  Definition ep_paragraph (check_first_line : bool) : eparser W (list inline) :=
    lines <~ lift (if check_first_line then ret []
                   else pmap (fun l => [l]) (preceded up_to_3_spaces not_eof_or_eol1)) ;;
    rest_lines <~ eline_terminated
       (eseparated_list0 (lift line_ending)
          (epreceded ep_is_paragraph_line_start (lift (preceded up_to_3_spaces not_eof_or_eol1)))) ;;
    enested (einline_many1 E) (join [c_nl] (lines ++ rest_lines)).
  (** heading.rs:48-67 *)
  Definition ep_heading_v2_or_paragraph : eparser W block :=
    content <~ ep_paragraph true ;;
    level <~ lift (opt p_heading_v2_level) ;;
    eret (match level with
          | Some l => BHeading (Heading (Setext l) content)
          | None => BParagraph content
          end).
  (** blocks/mod.rs:24-115 *)
  Definition ep_block : eparser W (list block) :=
    epreceded (lift many_empty_lines0)
      (ealt [ econditional_block (eb_code_block E) (lift (pmap BCodeBlock p_code_block));
              econditional_block (eb_heading_v1 E) (emap BHeading ep_heading_v1);
              econditional_block (eb_heading_v2 E) ep_heading_v2_or_paragraph;
              econditional_block (eb_thematic_break E) (lift (value BThematicBreak p_thematic_break));
              econditional_block_vec (eb_github_alert E) ep_github_alert;
              econditional_block (eb_blockquote E) (emap BBlockQuote ep_blockquote);
              econditional_block (eb_list E) (emap BList ep_list);
              econditional_block (eb_html_block E) (lift (pmap BHtmlBlock p_html_block));
              econditional_block (eb_footnote_definition E) (emap BFootnoteDefinition ep_footnote_definition);
              econditional_block (eb_link_definition E) (emap BDefinition ep_link_definition);
              econditional_block (eb_table E) (emap BTable ep_table);
              ep_custom_block;
              econditional_block (eb_paragraph E) (emap BParagraph (ep_paragraph false)) ]).
End Block.

Fixpoint eblock_f {W} (E : econfig W) (fuel : nat) : eparser W (list block) :=
  match fuel with
  | O => fun _ w => (Oof, w)
  | S f => ep_block E (eblock_f E f)
  end.
(** mod.rs:179-194 [parse_markdown], from an initial state of the closures to
    the document and their final state *)
Definition ep_document {W} (b : eparser W (list block)) : eparser W document :=
  emap (fun bs => Document (concat bs))
    (eterminated (emany0 b) (lift (pair_ (many0 (alt [space1; line_ending])) eof))).
Definition eparse_markdown {W} (E : econfig W) (input : str) (w : W) : res document * W :=
  ep_document (eblock_f E (S (List.length input))) input w.
