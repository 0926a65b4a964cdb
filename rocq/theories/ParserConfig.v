(** Parser configuration: /repo/src/parser/config.rs. *)
From Coq Require Import String.
From Verif Require Export Ast Nom.
Import ListNotations.
Open Scope list_scope.

(** config.rs:30-60 [ElementBehavior].  Simplification: the user closures
    ([Rc<RefCell<Box<dyn FnMut>>>]) are pure functions; see [EffParser.v] for
    closures with state. *)
Inductive behavior (A : Type) :=
| Parse | Ignore | Skip | MapB (f : A -> A) | FlatMap (f : A -> list A).
Arguments Parse {A}. Arguments Ignore {A}. Arguments Skip {A}.
Arguments MapB {A}. Arguments FlatMap {A}.

(** config.rs:62-160 [MarkdownParserConfig].  The HTML entity map is a partial
    function on the whole reference ("&amp;").  The last two fields are not
    configuration: they are the Unicode tables of the libraries used
    ([unicode_categories::is_punctuation], [char::to_uppercase]), of which only
    the ASCII part is fixed by the model; every theorem holds for any table. *)
Record config := Config {
  allow_no_space_in_headings : bool;
  html_entities : str -> option str;
  b_blockquote : behavior block;
  b_github_alert : behavior block;
  b_heading_v1 : behavior block;
  b_heading_v2 : behavior block;
  b_thematic_break : behavior block;
  b_list : behavior block;
  b_code_block : behavior block;
  b_html_block : behavior block;
  b_footnote_definition : behavior block;
  b_link_definition : behavior block;
  b_table : behavior block;
  b_paragraph : behavior block;
  i_autolink : behavior inline;
  i_link : behavior inline;
  i_footnote_reference : behavior inline;
  i_reference_link : behavior inline;
  i_hard_newline : behavior inline;
  i_image : behavior inline;
  i_code_span : behavior inline;
  i_emphasis : behavior inline;
  i_strikethrough : behavior inline;
  i_text : behavior inline;
  custom_block : option (parser (list block));
  custom_inline : option (parser (list inline));
  punct_table : char -> bool;
  upper_table : char -> str
}.

(** config.rs:162-195 [Default]; the entity table and the Unicode tables are
    parameters. *)
Definition default_config (entities : str -> option str)
    (punct : char -> bool) (upper : char -> str) : config :=
  {| allow_no_space_in_headings := false;
     html_entities := entities;
     b_blockquote := Parse; b_github_alert := Parse; b_heading_v1 := Parse;
     b_heading_v2 := Parse; b_thematic_break := Parse; b_list := Parse;
     b_code_block := Parse; b_html_block := Parse; b_footnote_definition := Parse;
     b_link_definition := Parse; b_table := Parse; b_paragraph := Parse;
     i_autolink := Parse; i_link := Parse; i_footnote_reference := Parse;
     i_reference_link := Parse; i_hard_newline := Parse; i_image := Parse;
     i_code_span := Parse; i_emphasis := Parse; i_strikethrough := Parse; i_text := Parse;
     custom_block := None; custom_inline := None;
     punct_table := punct; upper_table := upper |}.

(** util.rs:53-82 [conditional] *)
Definition conditional {A} (b : behavior A) (default : list A) (inner : parser A) : parser (list A) :=
  match b with
  | Ignore => fail
  | Parse => pmap (fun v => [v]) inner
  | Skip => value default inner
  | MapB f => pmap (fun v => [f v]) inner
  | FlatMap f => pmap f inner
  end.
(** util.rs:84-124 [conditional_block_unit], [conditional_inline_unit]: the
    hooks are not run, only success matters *)
Definition conditional_unit {A} (b : behavior A) (inner : parser unit) : parser unit :=
  match b with Ignore => fail | _ => inner end.
(** util.rs:126-150 [conditional_block], [conditional_inline] *)
Definition conditional_block (b : behavior block) (p : parser block) := conditional b [BEmpty] p.
Definition conditional_inline (b : behavior inline) (p : parser inline) := conditional b [IEmpty] p.
(** util.rs:152-177 [conditional_block_vec] *)
Definition conditional_block_vec (b : behavior block) (p : parser (list block)) : parser (list block) :=
  match b with
  | Ignore => fail
  | Skip => value [BEmpty] p
  | Parse | MapB _ | FlatMap _ => p
  end.

(** ** util.rs:11-36 *)
Definition p_unit {A} (p : parser A) : parser unit := value tt p.
Definition eof_or_eol : parser str := alt [line_ending; eof].
Definition many_empty_lines0 : parser (list str) := many0 (preceded space0 eof_or_eol).
Definition not_eof_or_eol1 : parser str := recognize (many1 (preceded (not_ eof_or_eol) anychar)).
Definition not_eof_or_eol0 : parser str := alt [not_line_ending; eof].
Definition line_terminated {A} (p : parser A) : parser A := terminated p eof_or_eol.

(** [many_m_n(0, 3, char(' '))] *)
Definition up_to_3_spaces : parser str := many_m_n 0 3 (chr " ").

(** A nested parse of a computed string: the remainder of the nested parse is
    discarded, as in [let (_, x) = p.parse(content)?]. *)
Definition nested {A} (p : parser A) (content : str) : parser A :=
  fun s => match p content with Ok _ a => Ok s a | Err => Err | Oof => Oof end.
