(** /repo/src/html_printer.  Documents are built with [pretty] (Pretty.v);
    everything that can panic is [DPanic]. *)
From Coq Require Import String.
From Verif Require Export Ast Pretty.
Import ListNotations.
Open Scope list_scope.

(** html_printer/util.rs:3-16 [escape] *)
Definition escape_char (c : char) : str :=
  if N.eqb c 38 then lit "&amp;"
  else if N.eqb c 60 then lit "&lt;"
  else if N.eqb c 62 then lit "&gt;"
  else if N.eqb c 34 then lit "&quot;"
  else if N.eqb c 39 then lit "&apos;"
  else [c].
Definition escape (value : str) : str := flat_map escape_char value.

(** html_printer/util.rs:18-47 [tag] *)
Definition tag (name : str) (attributes : list (str * str)) (inner : doc) : doc :=
  let attrs := fold_left (fun acc kv =>
      append acc (append (append (append (append (DText (lit " ")) (DText (fst kv))) (DText (lit "=""")))
                    (DText (escape (snd kv)))) (DText (lit """")))) attributes DNil in
  let open_tag := append (append (append (DText (lit "<")) (DText name)) attrs) (DText (lit ">")) in
  let close_tag := append (append (DText (lit "</")) (DText name)) (DText (lit ">")) in
  append (append open_tag inner) close_tag.

(** ** html_printer/index.rs *)

(** Equality of inline nodes ([HashMap<Vec<Inline>, _>] keys; derived
    [PartialEq] / [Hash] on [Inline]). *)
Section ListEqb.
  Context {A : Type} (eqb : A -> A -> bool).
  Fixpoint list_eqb (a b : list A) : bool :=
    match a, b with
    | [], [] => true
    | x :: a', y :: b' => eqb x y && list_eqb a' b'
    | _, _ => false
    end.
End ListEqb.
Definition opt_str_eqb (a b : option str) : bool :=
  match a, b with
  | Some x, Some y => str_eqb x y
  | None, None => true
  | _, _ => false
  end.
Fixpoint inline_eqb (a b : inline) : bool :=
  match a, b with
  | IText x, IText y | ICode x, ICode y | IHtml x, IHtml y | IAutolink x, IAutolink y
  | IFootnoteReference x, IFootnoteReference y => str_eqb x y
  | ILineBreak, ILineBreak | IEmpty, IEmpty => true
  | ILink x, ILink y =>
      str_eqb (link_destination x) (link_destination y) && opt_str_eqb (link_title x) (link_title y)
      && list_eqb inline_eqb (link_children x) (link_children y)
  | ILinkReference x, ILinkReference y =>
      list_eqb inline_eqb (lr_label x) (lr_label y) && list_eqb inline_eqb (lr_text x) (lr_text y)
  | IImage x, IImage y =>
      str_eqb (image_destination x) (image_destination y) && opt_str_eqb (image_title x) (image_title y)
      && str_eqb (image_alt x) (image_alt y)
  | IEmphasis x, IEmphasis y | IStrong x, IStrong y | IStrikethrough x, IStrikethrough y =>
      list_eqb inline_eqb x y
  | _, _ => false
  end.

(** A [HashMap] as an association list, most recent binding first. *)
Definition map_insert {K V} (k : K) (v : V) (m : list (K * V)) : list (K * V) := (k, v) :: m.
Fixpoint map_get {K V} (eqb : K -> K -> bool) (k : K) (m : list (K * V)) : option V :=
  match m with
  | [] => None
  | (k', v) :: m' => if eqb k k' then Some v else map_get eqb k m'
  end.

(** index.rs:4-8 [Index] *)
Record index := Index {
  footnote_indices : list (str * N);
  link_definitions : list (list inline * link_definition);
  last_footnote_index : N }.
(** index.rs:11-17 [Index::new] *)
Definition index_new : index := Index [] [] 1.
(** index.rs:19-25 [add_footnote]; [usize] overflow not modelled (it would
    need 2^64 distinct labels) *)
Definition add_footnote (ix : index) (label : str) : index :=
  match map_get str_eqb label (footnote_indices ix) with
  | Some _ => ix
  | None => Index (map_insert label (last_footnote_index ix) (footnote_indices ix))
              (link_definitions ix) (last_footnote_index ix + 1)
  end.
(** index.rs:106-110 [get_inline_indicies]: not recursive *)
Definition get_inline_indicies (ix : index) (i : inline) : index :=
  match i with IFootnoteReference label => add_footnote ix label | _ => ix end.
Definition get_inlines_indicies (ix : index) (l : list inline) : index :=
  fold_left get_inline_indicies l ix.
(** index.rs:40-104 [get_block_indicies] *)
Fixpoint get_block_indicies (ix : index) (b : block) : index :=
  match b with
  | BParagraph v => get_inlines_indicies ix v
  | BHeading v => get_inlines_indicies ix (h_content v)
  | BThematicBreak | BCodeBlock _ | BHtmlBlock _ | BEmpty => ix
  | BBlockQuote v => fold_left get_block_indicies v ix
  | BList v => fold_left (fun ix it => fold_left get_block_indicies (li_blocks it) ix) (l_items v) ix
  | BDefinition v =>
      get_inlines_indicies
        (Index (footnote_indices ix) (map_insert (ld_label v) v (link_definitions ix)) (last_footnote_index ix))
        (ld_label v)
  | BTable v => fold_left (fun ix row => fold_left get_inlines_indicies row ix) (t_rows v) ix
  | BFootnoteDefinition v => fold_left get_block_indicies (fd_blocks v) ix
  | BGitHubAlert a => fold_left get_block_indicies (ga_blocks a) ix
  end.
(** index.rs:28-38 [get_indicies] *)
Definition get_indicies (ast : document) : index :=
  fold_left get_block_indicies (d_blocks ast) index_new.

(** ** html_printer/github_alert.rs *)
(** 7-16 [html_title] *)
Definition html_title (t : alert_type) : str :=
  match t with
  | Note => lit "Note" | Tip => lit "Tip" | Important => lit "Important"
  | Warning => lit "Warning" | Caution => lit "Caution" | Custom s => s
  end.
(** 19-28 [css_classes] *)
Definition css_classes (t : alert_type) : str :=
  match t with
  | Note => lit "markdown-alert markdown-alert-note"
  | Tip => lit "markdown-alert markdown-alert-tip"
  | Important => lit "markdown-alert markdown-alert-important"
  | Warning => lit "markdown-alert markdown-alert-warning"
  | Caution => lit "markdown-alert markdown-alert-caution"
  | Custom _ => lit "markdown-alert markdown-alert-custom"
  end.
(** 31-52 [svg_icon] *)
Definition svg_icon (t : alert_type) : str :=
  match t with
  | Note => lit "<svg class=""octicon octicon-info mr-2"" viewBox=""0 0 16 16"" version=""1.1"" width=""16"" height=""16"" aria-hidden=""true""><path d=""M0 8a8 8 0 1 1 16 0A8 8 0 0 1 0 8Zm8-6.5a6.5 6.5 0 1 0 0 13 6.5 6.5 0 0 0 0-13ZM6.5 7.75A.75.75 0 0 1 7.25 7h1a.75.75 0 0 1 .75.75v2.75h.25a.75.75 0 0 1 0 1.5h-2a.75.75 0 0 1 0-1.5h.25v-2h-.25a.75.75 0 0 1-.75-.75ZM8 6a1 1 0 1 1 0-2 1 1 0 0 1 0 2Z""></path></svg>"
  | Tip => lit "<svg class=""octicon octicon-light-bulb mr-2"" viewBox=""0 0 16 16"" version=""1.1"" width=""16"" height=""16"" aria-hidden=""true""><path d=""M8 1.5c-2.363 0-4 1.69-4 3.75 0 .984.424 1.625.984 2.304l.214.253c.223.264.47.556.673.848.284.411.537.896.621 1.49a.75.75 0 0 1-1.484.211c-.04-.282-.163-.547-.37-.847a8.456 8.456 0 0 0-.542-.68c-.084-.1-.173-.205-.268-.32C3.201 7.75 2.5 6.766 2.5 5.25 2.5 2.31 4.863 0 8 0s5.5 2.31 5.5 5.25c0 1.516-.701 2.5-1.328 3.259-.095.115-.184.22-.268.319-.207.245-.383.453-.541.681-.208.3-.33.565-.37.847a.751.751 0 0 1-1.485-.212c.084-.593.337-1.078.621-1.489.203-.292.45-.584.673-.848.075-.088.147-.173.213-.253.561-.679.985-1.32.985-2.304 0-2.06-1.637-3.75-4-3.75ZM5.75 12h4.5a.75.75 0 0 1 0 1.5h-4.5a.75.75 0 0 1 0-1.5ZM6 15.25a.75.75 0 0 1 .75-.75h2.5a.75.75 0 0 1 0 1.5h-2.5a.75.75 0 0 1-.75-.75Z""></path></svg>"
  | Important => lit "<svg class=""octicon octicon-report mr-2"" viewBox=""0 0 16 16"" version=""1.1"" width=""16"" height=""16"" aria-hidden=""true""><path d=""M0 1.75C0 .784.784 0 1.75 0h12.5C15.216 0 16 .784 16 1.75v9.5A1.75 1.75 0 0 1 14.25 13H8.06l-2.573 2.573A1.458 1.458 0 0 1 3 14.543V13H1.75A1.75 1.75 0 0 1 0 11.25Zm1.75-.25a.25.25 0 0 0-.25.25v9.5c0 .138.112.25.25.25h2a.75.75 0 0 1 .75.75v2.19l2.72-2.72a.749.749 0 0 1 .53-.22h6.5a.25.25 0 0 0 .25-.25v-9.5a.25.25 0 0 0-.25-.25Zm7 2.25v2.5a.75.75 0 0 1-1.5 0v-2.5a.75.75 0 0 1 1.5 0ZM9 9a1 1 0 1 1-2 0 1 1 0 0 1 2 0Z""></path></svg>"
  | Warning => lit "<svg class=""octicon octicon-alert mr-2"" viewBox=""0 0 16 16"" version=""1.1"" width=""16"" height=""16"" aria-hidden=""true""><path d=""M6.457 1.047c.659-1.234 2.427-1.234 3.086 0l6.082 11.378A1.75 1.75 0 0 1 14.082 15H1.918a1.75 1.75 0 0 1-1.543-2.575Zm1.763.707a.25.25 0 0 0-.44 0L1.698 13.132a.25.25 0 0 0 .22.368h12.164a.25.25 0 0 0 .22-.368Zm.53 3.996v2.5a.75.75 0 0 1-1.5 0v-2.5a.75.75 0 0 1 1.5 0ZM9 11a1 1 0 1 1-2 0 1 1 0 0 1 2 0Z""></path></svg>"
  | Caution => lit "<svg class=""octicon octicon-stop mr-2"" viewBox=""0 0 16 16"" version=""1.1"" width=""16"" height=""16"" aria-hidden=""true""><path d=""M4.47.22A.749.749 0 0 1 5 0h6c.199 0 .389.079.53.22l4.25 4.25c.141.14.22.331.22.53v6a.749.749 0 0 1-.22.53l-4.25 4.25A.749.749 0 0 1 11 16H5a.749.749 0 0 1-.53-.22L.22 11.53A.749.749 0 0 1 0 11V5c0-.199.079-.389.22-.53Zm.84 1.28L1.5 5.31v5.38l3.81 3.81h5.38l3.81-3.81V5.31L10.69 1.5ZM8 4a.75.75 0 0 1 .75.75v3.5a.75.75 0 0 1-1.5 0v-3.5A.75.75 0 0 1 8 4Zm0 8a1 1 0 1 1 0-2 1 1 0 0 1 0 2Z""></path></svg>"
  | Custom _ => lit "<svg class=""octicon octicon-info mr-2"" viewBox=""0 0 16 16"" version=""1.1"" width=""16"" height=""16"" aria-hidden=""true""><path d=""M0 8a8 8 0 1 1 16 0A8 8 0 0 1 0 8Zm8-6.5a6.5 6.5 0 1 0 0 13 6.5 6.5 0 0 0 0-13ZM6.5 7.75A.75.75 0 0 1 7.25 7h1a.75.75 0 0 1 .75.75v2.75h.25a.75.75 0 0 1 0 1.5h-2a.75.75 0 0 1 0-1.5h.25v-2h-.25a.75.75 0 0 1-.75-.75ZM8 6a1 1 0 1 1 0-2 1 1 0 0 1 0 2Z""></path></svg>"
  end.

(** ** html_printer/mod.rs, block.rs, inline.rs *)
(** html_printer/config.rs:2-5 [Config] *)
Record html_config := HtmlConfig { hc_width : nat; hc_anchor_prefix : str }.
(** mod.rs:95-104 [State] (without the arena) *)
Record html_state := HtmlState { hs_config : html_config; hs_index : index }.
(** mod.rs:119-125 *)
Definition get_footnote_index (st : html_state) (label : str) : option N :=
  map_get str_eqb label (footnote_indices (hs_index st)).
Definition get_link_definition (st : html_state) (label : list inline) : option link_definition :=
  map_get (list_eqb inline_eqb) label (link_definitions (hs_index st)).

Section ToDoc.
Variable st : html_state.

(** inline.rs:31-37 and the other places where a title attribute is pushed *)
Definition title_attr (title : option str) : list (str * str) :=
  match title with Some t => [(lit "title", escape t)] | None => [] end.

(** inline.rs:16-90; the list case 6-14 is [concat_docs (map _)] *)
Fixpoint inline_to_doc (i : inline) : doc :=
  let children l := concat_docs (map inline_to_doc l) in
  match i with
  | IText t => DText (escape t)
  | ILineBreak => tag (lit "br") [] DNil
  | ICode code => tag (lit "code") [] (DText (escape code))
  | IHtml html => DText html
  | IEmphasis c => tag (lit "em") [] (children c)
  | IStrong c => tag (lit "b") [] (children c)
  | IStrikethrough c => tag (lit "s") [] (children c)
  | ILink l =>
      tag (lit "a") ((lit "href", escape (link_destination l)) :: title_attr (link_title l))
        (children (link_children l))
  | IImage im =>
      tag (lit "img")
        ((lit "src", escape (image_destination im)) :: (lit "alt", escape (image_alt im))
           :: title_attr (image_title im)) DNil
  | IAutolink link => tag (lit "a") [(lit "href", escape link)] (DText (escape link))
  | IFootnoteReference label =>
      match get_footnote_index st label with
      | None => DNil
      | Some ix =>
          tag (lit "a")
            [(lit "class", lit "markdown-footnote-reference");
             (lit "href", escape (lit "#" ++ hc_anchor_prefix (hs_config st) ++ dec ix))]
            (DText (lit "[" ++ dec ix ++ lit "]"))
      end
  | IEmpty => DNil
  | ILinkReference v =>
      match get_link_definition st (lr_label v) with
      | None => DNil
      | Some definition =>
          tag (lit "a") ((lit "href", escape (ld_destination definition)) :: title_attr (ld_title definition))
            (children (lr_text v))
      end
  end.
Definition inlines_to_doc (l : list inline) : doc := concat_docs (map inline_to_doc l).

(** block.rs:32-41 *)
Definition heading_tag (k : heading_kind) : str :=
  match k with
  | Atx n => if N.eqb n 1 then lit "h1" else if N.eqb n 2 then lit "h2" else if N.eqb n 3 then lit "h3"
             else if N.eqb n 4 then lit "h4" else if N.eqb n 5 then lit "h5" else lit "h6"
  | Setext Level1 => lit "h1"
  | Setext Level2 => lit "h2"
  end.
(** block.rs:125-141 *)
Definition code_block_to_doc (c : code_block) : doc :=
  tag (lit "pre") [] (tag (lit "code") [] (DText (escape (cb_literal c)))).
(** block.rs:166-172 *)
Definition align_class (a : option alignment) : str :=
  lit "markdown-table-align-" ++
  match a with
  | Some ALeft | Some ANone | None => lit "left"
  | Some ARight => lit "right"
  | Some ACenter => lit "center"
  end.
(** block.rs:158-178 [table_row_to_doc]; [i] is the enumeration index *)
Fixpoint cells_to_doc (row_tag : str) (alignments : list alignment) (i : nat) (row : table_row) (acc : doc) : doc :=
  match row with
  | [] => acc
  | cell :: row' =>
      cells_to_doc row_tag alignments (S i) row'
        (append acc (tag row_tag [(lit "class", align_class (nth_error alignments i))] (inlines_to_doc cell)))
  end.
Definition table_row_to_doc (row : table_row) (row_tag : str) (alignments : list alignment) : doc :=
  tag (lit "tr") [] (cells_to_doc row_tag alignments 0 row DNil).
(** block.rs:143-156; [rows.first().unwrap()] panics on a table without rows *)
Definition table_to_doc (t : table) : doc :=
  match t_rows t with
  | [] => DPanic
  | first :: rows =>
      let first_row := table_row_to_doc first (lit "th") (t_alignments t) in
      let acc := fold_left (fun acc row => append acc (table_row_to_doc row (lit "td") (t_alignments t))) rows DNil in
      let content := append (tag (lit "thead") [] first_row) (tag (lit "tbody") [] acc) in
      tag (lit "table") [] content
  end.
(** block.rs:97-114 *)
Definition task_to_doc (t : option task_state) : doc :=
  match t with
  | Some Complete => tag (lit "span") [(lit "class", lit "markdown-list-task-complete")] (DText (lit "[X] "))
  | Some Incomplete => tag (lit "span") [(lit "class", lit "markdown-list-task-incomplete")] (DText (lit "[ ] "))
  | None => DNil
  end.
(** block.rs:71-91 *)
Definition list_tag (k : list_kind) (items : doc) : doc :=
  match k with
  | Ordered start => tag (lit "ol") [(lit "start", dec start)] items
  | Bullet Dash => tag (lit "ul") [(lit "class", lit "markdown-list-kind-dash")] items
  | Bullet Star => tag (lit "ul") [(lit "class", lit "markdown-list-kind-star")] items
  | Bullet Plus => tag (lit "ul") [(lit "class", lit "markdown-list-kind-plus")] items
  end.

(** block.rs:6-64, 95-123 (items), 180-213 (footnotes); github_alert.rs:55-77 *)
Fixpoint block_to_doc (b : block) : doc :=
  let children l := concat_docs (map block_to_doc l) in
  match b with
  | BParagraph inlines => tag (lit "p") [] (inlines_to_doc inlines)
  | BHeading v => tag (heading_tag (h_kind v)) [] (inlines_to_doc (h_content v))
  | BThematicBreak => tag (lit "hr") [] DNil
  | BBlockQuote inner => tag (lit "blockquote") [] (children inner)
  | BList v =>
      list_tag (l_kind v)
        (concat_docs (map (fun it => tag (lit "li") []
           (append (task_to_doc (li_task it)) (children (li_blocks it)))) (l_items v)))
  | BCodeBlock v => code_block_to_doc v
  | BHtmlBlock html => DText html
  | BDefinition _ => DNil
  | BEmpty => DNil
  | BTable v => table_to_doc v
  | BFootnoteDefinition def =>
      match get_footnote_index st (fd_label def) with
      | None => DNil
      | Some ix =>
          tag (lit "div") [(lit "class", lit "markdown-footnote-definition")]
            (append
              (tag (lit "span") [(lit "class", lit "markdown-footnote-definition-index")]
                 (DText (dec ix ++ lit ". ")))
              (tag (lit "span") [(lit "class", lit "markdown-footnote-definition-content")]
                 (children (fd_blocks def))))
      end
  | BGitHubAlert alert =>
      let title := tag (lit "p") [(lit "class", lit "markdown-alert-title")]
                     (append (DText (svg_icon (ga_type alert))) (DText (html_title (ga_type alert)))) in
      tag (lit "div") [(lit "class", css_classes (ga_type alert))]
        (append title (children (ga_blocks alert)))
  end.
Definition blocks_to_doc (l : list block) : doc := concat_docs (map block_to_doc l).
End ToDoc.

(** mod.rs:107-117 [State::new]; 170-177 [render_html].  [None] = panic. *)
Definition html_state_new (config : html_config) (ast : document) : html_state :=
  HtmlState config (get_indicies ast).
Definition render_html (uwidth : str -> nat) (ast : document) (config : html_config) : option str :=
  render uwidth (hc_width config) (blocks_to_doc (html_state_new config ast) (d_blocks ast)).
