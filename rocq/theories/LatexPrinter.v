(** /repo/src/latex_printer.  Documents are built with [pretty] (Pretty.v).
    [HashMap]s and label equality as in HtmlPrinter.v. *)
From Coq Require Import String.
From Verif Require Export Ast Pretty HtmlPrinter.
Import ListNotations.
Open Scope list_scope.

(** latex_printer/util.rs:36-52 [escape_latex] *)
Definition escape_latex_char (c : char) : str :=
  if N.eqb c 92 then lit "\textbackslash{}"
  else if N.eqb c 123 then lit "\{"
  else if N.eqb c 125 then lit "\}"
  else if N.eqb c 36 then lit "\$"
  else if N.eqb c 38 then lit "\&"
  else if N.eqb c 37 then lit "\%"
  else if N.eqb c 35 then lit "\#"
  else if N.eqb c 94 then lit "\textasciicircum{}"
  else if N.eqb c 95 then lit "\_"
  else if N.eqb c 126 then lit "\textasciitilde{}"
  else [c].
Definition escape_latex (text : str) : str := flat_map escape_latex_char text.

(** util.rs:86-108 [environment] *)
Definition environment (name : str) (options : option str) (content : doc) : doc :=
  let begin := match options with
    | Some opts => DText (lit "\begin{" ++ name ++ lit "}[" ++ opts ++ lit "]")
    | None => DText (lit "\begin{" ++ name ++ lit "}")
    end in
  let end_ := DText (lit "\end{" ++ name ++ lit "}") in
  append (append (append (append begin DHardline) content) DHardline) end_.
(** util.rs:140-155 [command]; it is never called with arguments *)
Definition command (name : str) (content : doc) : doc :=
  append (append (append (DText (lit "\" ++ name)) (DText (lit "{"))) content) (DText (lit "}")).

(** config.rs *)
Inductive table_style := Tabular | Longtabu | Booktabs.
Inductive code_block_style := Verbatim | Listings | Minted.
Record latex_config := LatexConfig {
  lc_width : nat; lc_table_style : table_style; lc_code_block_style : code_block_style }.

(** mod.rs:232-286 [get_indices]: the footnote index, the link definitions and
    the counter are threaded through the nested function [process_blocks] *)
Record lindex := LIndex {
  li_footnotes : list (str * N);
  li_definitions : list (list inline * link_definition);
  li_counter : N }.
Fixpoint process_block (ix : lindex) (b : block) : lindex :=
  match b with
  | BFootnoteDefinition def =>
      LIndex (map_insert (fd_label def) (li_counter ix) (li_footnotes ix)) (li_definitions ix) (li_counter ix + 1)
  | BDefinition def =>
      LIndex (li_footnotes ix) (map_insert (ld_label def) def (li_definitions ix)) (li_counter ix)
  | BList l => fold_left (fun ix it => fold_left process_block (li_blocks it) ix) (l_items l) ix
  | BBlockQuote bs => fold_left process_block bs ix
  | BGitHubAlert a => fold_left process_block (ga_blocks a) ix
  | _ => ix
  end.
Definition get_indices (ast : document) : lindex :=
  fold_left process_block (d_blocks ast) (LIndex [] [] 1).

(** mod.rs:93-131 [State] (without the arena) *)
Record latex_state := LatexState { ls_config : latex_config; ls_index : lindex }.
Definition l_footnote_index (st : latex_state) (label : str) : option N :=
  map_get str_eqb label (li_footnotes (ls_index st)).
Definition l_link_definition (st : latex_state) (label : list inline) : option link_definition :=
  map_get (list_eqb inline_eqb) label (li_definitions (ls_index st)).

(** inline.rs:158-183 [split_with_spaces].  The accumulator is [result]
    reversed, [cur] the current word reversed ([None]: no word started). *)
Fixpoint split_spaces_go (s : str) (cur : option str) (result : list (option str)) : list (option str) :=
  match s with
  | [] => match cur with Some w => Some (rev w) :: result | None => result end
  | c :: s' =>
      if is_whitespace c then
        let result := match cur with Some w => Some (rev w) :: result | None => result end in
        let result := match result with None :: _ => result | _ => None :: result end in
        split_spaces_go s' None result
      else split_spaces_go s' (Some (c :: match cur with Some w => w | None => [] end)) result
  end.
Definition split_with_spaces (s : str) : list (option str) := rev (split_spaces_go s None []).

(** [text.replace('\n', " ")] *)
Definition nl_to_sp (s : str) : str := map (fun c => if N.eqb c c_nl then c_sp else c) s.

Section ToDoc.
Variable st : latex_state.

(** inline.rs:17-36 *)
Definition ltext_to_doc (text : str) : doc :=
  let text := nl_to_sp text in
  match trim text with
  | [] => DText (escape_latex text)
  | _ => concat_docs (map (fun v => match v with
           | Some word => DText (escape_latex word)
           | None => softline end) (split_with_spaces text))
  end.

(** inline.rs:14-149 *)
Fixpoint linline_to_doc (i : inline) : doc :=
  let children l := concat_docs (map linline_to_doc l) in
  let href url text :=
    append (append (append (command (lit "href") (DText (escape_latex url))) (DText (lit "{"))) text) (DText (lit "}")) in
  match i with
  | IText text => ltext_to_doc text
  | ILineBreak => append (DText (lit "\\")) DHardline
  | ICode code => command (lit "texttt") (DText (escape_latex code))
  | IHtml html => DText (escape_latex html)
  | ILink l =>
      match link_title l with
      | Some title => append (href (link_destination l) (children (link_children l)))
                        (command (lit "footnote") (DText (escape_latex title)))
      | None => href (link_destination l) (children (link_children l))
      end
  | ILinkReference r =>
      match l_link_definition st (lr_label r) with
      | Some definition => href (ld_destination definition) (children (lr_text r))
      | None => append (append (append (append (DText (lit "[")) (children (lr_text r))) (DText (lit "][")))
                  (children (lr_label r))) (DText (lit "]"))
      end
  | IImage im =>
      let cmd := append (append (append (command (lit "includegraphics") DNil) (DText (lit "{")))
                   (DText (escape_latex (image_destination im)))) (DText (lit "}")) in
      match image_alt im with
      | [] => cmd
      | alt => append cmd (command (lit "caption") (DText (escape_latex alt)))
      end
  | IEmphasis c => command (lit "textit") (children c)
  | IStrong c => command (lit "textbf") (children c)
  | IStrikethrough c => command (lit "sout") (children c)
  | IAutolink url => command (lit "url") (DText (escape_latex url))
  | IFootnoteReference label =>
      match l_footnote_index st label with
      | Some ix => command (lit "footnotemark") (DText (lit "[" ++ dec ix ++ lit "]"))
      | None => append (append (DText (lit "[^")) (DText (escape_latex label))) (DText (lit "]"))
      end
  | IEmpty => DNil
  end.
Definition linlines_to_doc (l : list inline) : doc := concat_docs (map linline_to_doc l).

(** block.rs:33-47 *)
Definition section_name (k : heading_kind) : str :=
  let name level :=
    if N.eqb level 1 then lit "section" else if N.eqb level 2 then lit "subsection"
    else if N.eqb level 3 then lit "subsubsection" else if N.eqb level 4 then lit "paragraph"
    else lit "subparagraph" in
  match k with Atx n => name n | Setext Level1 => name 1%N | Setext Level2 => name 2%N end.

(** block.rs:152-194 [render_code_block] *)
Definition render_code_block (c : code_block) : doc :=
  match lc_code_block_style (ls_config st) with
  | Verbatim => environment (lit "verbatim") None (DText (cb_literal c))
  | Listings =>
      let options := match cb_kind c with Fenced (Some lang) => Some (lit "language=" ++ lang) | _ => None end in
      environment (lit "lstlisting") options (DText (cb_literal c))
  | Minted =>
      let lang := match cb_kind c with Fenced (Some lang) => lang | _ => lit "text" end in
      append (append (append (append (DText (lit "\begin{minted}{" ++ lang ++ lit "}")) DHardline)
        (DText (cb_literal c))) DHardline) (DText (lit "\end{minted}"))
  end.

(** table.rs:116-125 [create_column_spec] *)
Definition create_column_spec (al : list alignment) : str :=
  flat_map (fun a => match a with ALeft | ANone => lit "l" | ACenter => lit "c" | ARight => lit "r" end) al.
(** table.rs:100-114 [render_table_row] *)
Definition render_table_row (row : table_row) : doc :=
  append (match row with
    | [] => DNil
    | cell :: row' => fold_left (fun acc cell => append (append acc (DText (lit " & "))) (linlines_to_doc cell))
                        row' (append DNil (linlines_to_doc cell))
    end) (DText (lit " \\")).
(** table.rs:17-41, 43-69, 71-98 *)
Definition render_table (t : table) : doc :=
  let spec := create_column_spec (t_alignments t) in
  let header rule content :=
    match t_rows t with
    | [] => content
    | h :: _ => append (append (append (append content (render_table_row h)) DHardline) (DText rule)) DHardline
    end in
  let data (tail : doc) content :=
    fold_left (fun acc row => append (append (append acc (render_table_row row)) tail) DHardline) (skipn 1 (t_rows t)) content in
  match lc_table_style (ls_config st) with
  | Tabular => environment (lit "tabular") (Some spec) (data DNil (header (lit "\hline") DNil))
  | Longtabu =>
      environment (lit "longtabu") (Some (lit "X[l] to \textwidth {" ++ spec ++ lit "}"))
        (data (DText (lit " \\")) (header (lit "\\ \hline") DNil))
  | Booktabs =>
      environment (lit "tabular") (Some spec)
        (append (data DNil (header (lit "\midrule") (append (DText (lit "\toprule")) DHardline))) (DText (lit "\bottomrule")))
  end.

(** block.rs:89-98 *)
Definition latex_alert_type (t : alert_type) : str :=
  match t with
  | Note => lit "Note" | Tip => lit "Tip" | Important => lit "Important"
  | Warning => lit "Warning" | Caution => lit "Caution" | Custom s => s
  end.
(** block.rs:138-146 *)
Definition checkbox (t : option task_state) : doc :=
  match t with
  | Some Complete => DText (lit "$\boxtimes$ ")
  | Some Incomplete => DText (lit "$\square$ ")
  | None => DNil
  end.
(** block.rs:14-27: blocks separated by two line breaks *)
Definition join_blocks (l : list doc) : doc :=
  match l with
  | [] => DNil
  | d :: l' => fold_left (fun acc x => append (append (append acc DHardline) DHardline) x) l' (append DNil d)
  end.

(** block.rs:29-149 *)
Fixpoint lblock_to_doc (b : block) : doc :=
  let children l := join_blocks (map lblock_to_doc l) in
  match b with
  | BParagraph c => linlines_to_doc c
  | BHeading h => command (section_name (h_kind h)) (linlines_to_doc (h_content h))
  | BThematicBreak => command (lit "hrule") DNil
  | BBlockQuote bs => environment (lit "quote") None (children bs)
  | BList l =>
      let env := match l_kind l with Ordered _ => lit "enumerate" | Bullet _ => lit "itemize" end in
      environment env None
        (concat_docs (map (fun it =>
           append (append (append (DText (lit "\item ")) (checkbox (li_task it))) (children (li_blocks it))) DHardline)
           (l_items l)))
  | BCodeBlock c => render_code_block c
  | BHtmlBlock html => DText (escape_latex html)
  | BDefinition _ => DNil
  | BTable t => render_table t
  | BFootnoteDefinition def =>
      match l_footnote_index st (fd_label def) with
      | Some ix => command (lit "footnotetext") (append (DText (lit "[" ++ dec ix ++ lit "] ")) (children (fd_blocks def)))
      | None => DNil
      end
  | BGitHubAlert a =>
      command (lit "footnote") (append (DText (latex_alert_type (ga_type a) ++ lit ": ")) (children (ga_blocks a)))
  | BEmpty => DNil
  end.
End ToDoc.

(** mod.rs:107-118 [State::new]; 199-206 [render_latex].  [None] = panic. *)
Definition latex_state_new (config : latex_config) (ast : document) : latex_state :=
  LatexState config (get_indices ast).
Definition render_latex (uwidth : str -> nat) (ast : document) (config : latex_config) : option str :=
  render uwidth (lc_width config)
    (join_blocks (map (lblock_to_doc (latex_state_new config ast)) (d_blocks ast))).
