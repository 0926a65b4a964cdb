(** Independent specifications for the HTML properties C22-C31: a strict HTML
    lexer, balancedness, and the intended "view" of a document as an HTML
    tree.  The only things taken from the printer model are the constant alert
    icons ([svg_icon]) and equality of label nodes ([inline_eqb]). *)
From Coq Require Import String.
From Verif Require Export HtmlPrinter SpecAst.
Import ListNotations.
Open Scope list_scope.

(** ** A strict lexer *)
(** Tags with their (entity-decoded) attribute values, and (entity-decoded)
    text characters. *)
Inductive tok :=
| TOpen (name : str) (attrs : list (str * str))
| TClose (name : str)
| TChar (c : char).

(** Lexer states: in text; in an entity; after "<"; in a closing tag's name;
    in an opening tag's name; in an attribute name; after "="; in a quoted
    value; in an entity of a quoted value; after a quoted value. *)
Inductive lex :=
| LText | LEnt (e : str) | LLt | LClose (n : str) | LName (n : str)
| LKey (n : str) (a : list (str * str)) (k : str)
| LEq (n : str) (a : list (str * str)) (k : str)
| LVal (n : str) (a : list (str * str)) (k v : str)
| LValEnt (n : str) (a : list (str * str)) (k v e : str)
| LAfter (n : str) (a : list (str * str)).

(** The five predefined entities. *)
Definition entity (e : str) : option char :=
  if str_eqb e (lit "amp") then Some 38%N
  else if str_eqb e (lit "lt") then Some 60%N
  else if str_eqb e (lit "gt") then Some 62%N
  else if str_eqb e (lit "quot") then Some 34%N
  else if str_eqb e (lit "apos") then Some 39%N
  else None.

Definition nonempty (s : str) : bool := match s with [] => false | _ => true end.

(** One character; [None] is a syntax error. *)
Definition lex_step (s : lex) (c : char) : option (lex * list tok) :=
  match s with
  | LText => if N.eqb c 60 then Some (LLt, [])                 (* < *)
             else if N.eqb c 62 then None                      (* > *)
             else if N.eqb c 38 then Some (LEnt [], [])        (* & *)
             else Some (LText, [TChar c])
  | LEnt e => if N.eqb c 59 then option_map (fun x => (LText, [TChar x])) (entity e)   (* ; *)
              else if is_alpha c then Some (LEnt (e ++ [c]), []) else None
  | LLt => if N.eqb c 47 then Some (LClose [], [])             (* / *)
           else if is_alpha c then Some (LName [c], []) else None
  | LClose n => if N.eqb c 62 then (if nonempty n then Some (LText, [TClose n]) else None)
                else if is_alnum c then Some (LClose (n ++ [c]), []) else None
  | LName n => if N.eqb c 62 then Some (LText, [TOpen n []])
               else if N.eqb c 32 then Some (LKey n [] [], [])
               else if is_alnum c then Some (LName (n ++ [c]), []) else None
  | LKey n a k => if N.eqb c 61 then (if nonempty k then Some (LEq n a k, []) else None)   (* = *)
                  else if is_alnum c || N.eqb c 45 then Some (LKey n a (k ++ [c]), []) else None
  | LEq n a k => if N.eqb c 34 then Some (LVal n a k [], []) else None
  | LVal n a k v => if N.eqb c 34 then Some (LAfter n (a ++ [(k, v)]), [])
                    else if N.eqb c 38 then Some (LValEnt n a k v [], [])
                    else if N.eqb c 60 || N.eqb c 62 then None
                    else Some (LVal n a k (v ++ [c]), [])
  | LValEnt n a k v e => if N.eqb c 59 then option_map (fun x => (LVal n a k (v ++ [x]), [])) (entity e)
                         else if is_alpha c then Some (LValEnt n a k v (e ++ [c]), []) else None
  | LAfter n a => if N.eqb c 62 then Some (LText, [TOpen n a])
                  else if N.eqb c 32 then Some (LKey n a [], []) else None
  end.
Fixpoint lex_run (s : lex) (x : str) : option (lex * list tok) :=
  match x with
  | [] => Some (s, [])
  | c :: x' =>
      match lex_step s c with
      | None => None
      | Some (s1, t1) =>
          match lex_run s1 x' with
          | None => None
          | Some (s2, t2) => Some (s2, t1 ++ t2)
          end
      end
  end.
(** The tokens of a complete text: no syntax error, and not in the middle of a tag or entity. *)
Definition tokens (x : str) : option (list tok) :=
  match lex_run LText x with Some (LText, ts) => Some ts | _ => None end.

(** Properly nested elements. *)
Inductive balanced : list tok -> Prop :=
| bal_nil : balanced []
| bal_char c ts : balanced ts -> balanced (TChar c :: ts)
| bal_elem n a inner ts : balanced inner -> balanced ts ->
    balanced (TOpen n a :: inner ++ TClose n :: ts).

(** The text characters, and the tags with attribute names and CSS classes. *)
Definition text_of (ts : list tok) : str :=
  flat_map (fun t => match t with TChar c => [c] | _ => [] end) ts.
Definition tags_of (ts : list tok) : list tok :=
  flat_map (fun t => match t with
    | TOpen n a => [TOpen n (map (fun kv => (fst kv, if str_eqb (fst kv) (lit "class") then snd kv else [])) a)]
    | TClose n => [TClose n]
    | TChar _ => [] end) ts.

(** ** HTML trees *)
Inductive node :=
| Elem (name : str) (attrs : list (str * str)) (kids : list node)
| Chars (s : str)          (* characters to be displayed *)
| Raw (s : str).           (* markup taken over verbatim *)
Fixpoint flatten (n : node) : list tok :=
  match n with
  | Elem name attrs kids => TOpen name attrs :: flat_map flatten kids ++ [TClose name]
  | Chars s => map TChar s
  | Raw s => match tokens s with Some ts => ts | None => [] end
  end.
Definition flatten_all (l : list node) : list tok := flat_map flatten l.

(** ** Footnote numbers and link definitions *)
(** Labels referenced directly in a paragraph, heading, table cell or
    definition label, in document order. *)
Definition inline_refs (l : list inline) : list str :=
  flat_map (fun i => match i with IFootnoteReference x => [x] | _ => [] end) l.
Definition direct_refs (d : document) : list str :=
  flat_map (fun b => inline_refs (block_inlines b)) (doc_blocks d).
(** All referenced labels (also inside emphasis, links, ...). *)
Definition all_refs (d : document) : list str := inline_refs (doc_inlines d).
(** A list without its repetitions, in order of first occurrence. *)
Fixpoint first_occurrences (l : list str) : list str :=
  match l with
  | [] => []
  | x :: l' => x :: filter (fun y => negb (str_eqb y x)) (first_occurrences l')
  end.
(** 1-based position. *)
Fixpoint position (x : str) (l : list str) : option N :=
  match l with
  | [] => None
  | y :: l' => if str_eqb x y then Some 1%N else option_map N.succ (position x l')
  end.
(** The number of a footnote label. *)
Definition footnote_number (d : document) (label : str) : option N :=
  position label (first_occurrences (direct_refs d)).

(** All link definitions, in document order, and the last one with a given label. *)
Definition definitions (d : document) : list link_definition :=
  flat_map (fun b => match b with BDefinition x => [x] | _ => [] end) (doc_blocks d).
Definition resolve (d : document) (label : list inline) : option link_definition :=
  find (fun x => list_eqb inline_eqb label (ld_label x)) (rev (definitions d)).

(** ** The intended HTML view of a document.  [attr] says what becomes of
    user-supplied strings in attributes (intended: the identity). *)
Section View.
Variable attr : str -> str.
Variable prefix : str.
Variable num : str -> option N.
Variable def : list inline -> option link_definition.

Definition elem (n : string) := Elem (lit n).
Arguments elem n%string.
Definition cls (c : string) : list (str * str) := [(lit "class", lit c)].
Arguments cls c%string.
Definition vtitle (t : option str) : list (str * str) :=
  match t with Some t => [(lit "title", attr t)] | None => [] end.

Fixpoint view_inline (i : inline) : list node :=
  match i with
  | IText s => [Chars s]
  | ILineBreak => [elem "br" [] []]
  | ICode s => [elem "code" [] [Chars s]]
  | IHtml s => [Raw s]
  | IEmphasis c => [elem "em" [] (flat_map view_inline c)]
  | IStrong c => [elem "b" [] (flat_map view_inline c)]
  | IStrikethrough c => [elem "s" [] (flat_map view_inline c)]
  | ILink l => [elem "a" ((lit "href", attr (link_destination l)) :: vtitle (link_title l))
                  (flat_map view_inline (link_children l))]
  | IImage im => [elem "img" ((lit "src", attr (image_destination im)) :: (lit "alt", attr (image_alt im))
                                :: vtitle (image_title im)) []]
  | IAutolink u => [elem "a" [(lit "href", attr u)] [Chars u]]
  | IFootnoteReference x =>
      match num x with
      | Some n => [elem "a" (cls "markdown-footnote-reference" ++ [(lit "href", attr (lit "#" ++ prefix ++ dec n))])
                     [Chars (lit "[" ++ dec n ++ lit "]")]]
      | None => []
      end
  | ILinkReference l =>
      match def (lr_label l) with
      | Some x => [elem "a" ((lit "href", attr (ld_destination x)) :: vtitle (ld_title x))
                     (flat_map view_inline (lr_text l))]
      | None => []
      end
  | IEmpty => []
  end.
Definition view_inlines (l : list inline) : list node := flat_map view_inline l.

Definition hname (k : heading_kind) : string :=
  match k with
  | Atx n => if N.eqb n 1 then "h1" else if N.eqb n 2 then "h2" else if N.eqb n 3 then "h3"
             else if N.eqb n 4 then "h4" else if N.eqb n 5 then "h5" else "h6"
  | Setext Level1 => "h1" | Setext Level2 => "h2"
  end%string.
Definition acls (a : option alignment) : string :=
  match a with
  | Some ARight => "markdown-table-align-right"
  | Some ACenter => "markdown-table-align-center"
  | _ => "markdown-table-align-left"
  end%string.
(** cell number [k] of a row takes the [k]-th alignment *)
Fixpoint view_cells (cell : string) (al : list alignment) (row : table_row) : list node :=
  match row with
  | [] => []
  | c :: row' => elem cell (cls (acls (hd_error al))) (view_inlines c) :: view_cells cell (tl al) row'
  end.
Definition view_row (cell : string) (al : list alignment) (row : table_row) : node :=
  elem "tr" [] (view_cells cell al row).
Definition alert_class (t : alert_type) : string :=
  match t with
  | Note => "markdown-alert markdown-alert-note" | Tip => "markdown-alert markdown-alert-tip"
  | Important => "markdown-alert markdown-alert-important"
  | Warning => "markdown-alert markdown-alert-warning"
  | Caution => "markdown-alert markdown-alert-caution"
  | Custom _ => "markdown-alert markdown-alert-custom"
  end%string.
(** the label of a custom alert is taken over verbatim *)
Definition alert_title (t : alert_type) : node :=
  match t with
  | Note => Chars (lit "Note") | Tip => Chars (lit "Tip") | Important => Chars (lit "Important")
  | Warning => Chars (lit "Warning") | Caution => Chars (lit "Caution") | Custom s => Raw s
  end.
Definition view_task (t : option task_state) : list node :=
  match t with
  | Some Complete => [elem "span" (cls "markdown-list-task-complete") [Chars (lit "[X] ")]]
  | Some Incomplete => [elem "span" (cls "markdown-list-task-incomplete") [Chars (lit "[ ] ")]]
  | None => []
  end.
Definition view_list_elem (k : list_kind) (items : list node) : node :=
  match k with
  | Ordered n => elem "ol" [(lit "start", dec n)] items
  | Bullet Dash => elem "ul" (cls "markdown-list-kind-dash") items
  | Bullet Star => elem "ul" (cls "markdown-list-kind-star") items
  | Bullet Plus => elem "ul" (cls "markdown-list-kind-plus") items
  end.
Fixpoint view_block (b : block) : list node :=
  match b with
  | BParagraph c => [elem "p" [] (view_inlines c)]
  | BHeading h => [elem (hname (h_kind h)) [] (view_inlines (h_content h))]
  | BThematicBreak => [elem "hr" [] []]
  | BBlockQuote bs => [elem "blockquote" [] (flat_map view_block bs)]
  | BList l => [view_list_elem (l_kind l)
      (map (fun it => elem "li" [] (view_task (li_task it) ++ flat_map view_block (li_blocks it))) (l_items l))]
  | BCodeBlock c => [elem "pre" [] [elem "code" [] [Chars (cb_literal c)]]]
  | BHtmlBlock s => [Raw s]
  | BDefinition _ | BEmpty => []
  | BTable t => [elem "table" []
      [elem "thead" [] (map (view_row "th" (t_alignments t)) (firstn 1 (t_rows t)));
       elem "tbody" [] (map (view_row "td" (t_alignments t)) (skipn 1 (t_rows t)))]]
  | BFootnoteDefinition f =>
      match num (fd_label f) with
      | Some n => [elem "div" (cls "markdown-footnote-definition")
          [elem "span" (cls "markdown-footnote-definition-index") [Chars (dec n ++ lit ". ")];
           elem "span" (cls "markdown-footnote-definition-content") (flat_map view_block (fd_blocks f))]]
      | None => []
      end
  | BGitHubAlert a =>
      [elem "div" (cls (alert_class (ga_type a)))
         (elem "p" (cls "markdown-alert-title") [Raw (svg_icon (ga_type a)); alert_title (ga_type a)]
            :: flat_map view_block (ga_blocks a))]
  end.
End View.

Definition view (attr : str -> str) (prefix : str) (d : document) : list node :=
  flat_map (view_block attr prefix (footnote_number d) (resolve d)) (d_blocks d).

(** ** Side conditions *)
(** The strings taken over verbatim: raw HTML, and custom alert labels. *)
Definition inline_raw (i : inline) : list str := match i with IHtml s => [s] | _ => [] end.
Definition block_raw (b : block) : list str :=
  match b with
  | BHtmlBlock s => [s]
  | BGitHubAlert a => match ga_type a with Custom s => [s] | _ => [] end
  | _ => []
  end.
Definition raw_strings (d : document) : list str :=
  flat_map inline_raw (doc_inlines d) ++ flat_map block_raw (doc_blocks d).
(** Raw strings that are themselves lexically correct, balanced markup. *)
Definition raw_ok (s : str) : Prop := exists ts, tokens s = Some ts /\ balanced ts.
(** Every table has a header row. *)
Definition tables_ok (d : document) : Prop :=
  forall t, In (BTable t) (doc_blocks d) -> t_rows t <> [].
(** No raw HTML at all, and custom alert labels without "<", ">" and "&". *)
Definition plain_label (s : str) : bool :=
  forallb (fun c => negb (N.eqb c 60 || N.eqb c 62 || N.eqb c 38)) s.
Definition no_raw_html (d : document) : Prop :=
  (forall s, ~ In (IHtml s) (doc_inlines d)) /\ (forall s, ~ In (BHtmlBlock s) (doc_blocks d)) /\
  (forall s bs, In (BGitHubAlert (GitHubAlert (Custom s) bs)) (doc_blocks d) -> plain_label s = true).

(** ** Blanking user content: texts, code, URLs, titles and alternative texts
    become empty; the tree structure, raw HTML, alert types and the labels
    that tie references to definitions stay. *)
Fixpoint blank_inline (i : inline) : inline :=
  match i with
  | IText _ => IText []
  | ICode _ => ICode []
  | IEmphasis c => IEmphasis (map blank_inline c)
  | IStrong c => IStrong (map blank_inline c)
  | IStrikethrough c => IStrikethrough (map blank_inline c)
  | ILink l => ILink (Link [] (option_map (fun _ => []) (link_title l)) (map blank_inline (link_children l)))
  | ILinkReference l => ILinkReference (LinkReference (lr_label l) (map blank_inline (lr_text l)))
  | IImage im => IImage (Image [] (option_map (fun _ => []) (image_title im)) [])
  | IAutolink _ => IAutolink []
  | ILineBreak | IHtml _ | IFootnoteReference _ | IEmpty => i
  end.
Fixpoint blank_block (b : block) : block :=
  match b with
  | BParagraph c => BParagraph (map blank_inline c)
  | BHeading h => BHeading (Heading (h_kind h) (map blank_inline (h_content h)))
  | BBlockQuote bs => BBlockQuote (map blank_block bs)
  | BList l => BList (MkList (l_kind l)
      (map (fun it => ListItem (li_task it) (map blank_block (li_blocks it))) (l_items l)))
  | BCodeBlock c => BCodeBlock (CodeBlock (cb_kind c) [])
  | BDefinition x => BDefinition (LinkDefinition (ld_label x) [] (option_map (fun _ => []) (ld_title x)))
  | BTable t => BTable (Table (map (map (map blank_inline)) (t_rows t)) (t_alignments t))
  | BFootnoteDefinition f => BFootnoteDefinition (FootnoteDefinition (fd_label f) (map blank_block (fd_blocks f)))
  | BGitHubAlert a => BGitHubAlert (GitHubAlert (ga_type a) (map blank_block (ga_blocks a)))
  | BThematicBreak | BHtmlBlock _ | BEmpty => b
  end.
Definition blank (d : document) : document := Document (map blank_block (d_blocks d)).

(** ** Visible text *)
Fixpoint shown_inline (i : inline) : str :=
  match i with
  | IText s | ICode s | IAutolink s => s
  | IEmphasis c | IStrong c | IStrikethrough c => flat_map shown_inline c
  | ILink l => flat_map shown_inline (link_children l)
  | _ => []
  end.
Fixpoint shown_block (b : block) : str :=
  match b with
  | BParagraph c => flat_map shown_inline c
  | BHeading h => flat_map shown_inline (h_content h)
  | BBlockQuote bs => flat_map shown_block bs
  | BList l => flat_map (fun it =>
        match li_task it with Some Complete => lit "[X] " | Some Incomplete => lit "[ ] " | None => [] end
        ++ flat_map shown_block (li_blocks it)) (l_items l)
  | BCodeBlock c => cb_literal c
  | BTable t => flat_map (flat_map (flat_map shown_inline)) (t_rows t)
  | BGitHubAlert a =>
      match ga_type a with
      | Note => lit "Note" | Tip => lit "Tip" | Important => lit "Important"
      | Warning => lit "Warning" | Caution => lit "Caution" | Custom s => s
      end ++ flat_map shown_block (ga_blocks a)
  | _ => []
  end.
(** Everything the reader sees of a document without references, footnotes and raw HTML. *)
Definition shown (d : document) : str := flat_map shown_block (d_blocks d).
Definition no_references (d : document) : Prop :=
  (forall l, ~ In (ILinkReference l) (doc_inlines d)) /\
  (forall x, ~ In (IFootnoteReference x) (doc_inlines d)) /\
  (forall f, ~ In (BFootnoteDefinition f) (doc_blocks d)).
(** The five characters that HTML escaping touches. *)
Definition special (c : char) : bool :=
  N.eqb c 38 || N.eqb c 60 || N.eqb c 62 || N.eqb c 34 || N.eqb c 39.

(** The user strings that end up in attributes: destinations, titles, alternative texts. *)
Definition opt_list (o : option str) : list str := match o with Some s => [s] | None => [] end.
Definition inline_attrs (i : inline) : list str :=
  match i with
  | ILink l => link_destination l :: opt_list (link_title l)
  | IImage im => image_destination im :: image_alt im :: opt_list (image_title im)
  | IAutolink u => [u]
  | _ => []
  end.
Definition block_attrs (b : block) : list str :=
  match b with BDefinition x => ld_destination x :: opt_list (ld_title x) | _ => [] end.
Definition attr_strings (d : document) : list str :=
  flat_map inline_attrs (doc_inlines d) ++ flat_map block_attrs (doc_blocks d).
Definition plain (s : str) : Prop := forallb (fun c => negb (special c)) s = true.

(** The blocks that are displayed: definitions of unreferenced footnotes are left out. *)
Section Displayed.
  Variable num : str -> option N.
  Fixpoint displayed (b : block) : list block :=
    match b with
    | BFootnoteDefinition f =>
        match num (fd_label f) with Some _ => b :: flat_map displayed (fd_blocks f) | None => [] end
    | BBlockQuote bs => b :: flat_map displayed bs
    | BList l => b :: flat_map (fun it => flat_map displayed (li_blocks it)) (l_items l)
    | BGitHubAlert a => b :: flat_map displayed (ga_blocks a)
    | _ => [b]
    end.
End Displayed.
Definition displayed_blocks (d : document) : list block := flat_map (displayed (footnote_number d)) (d_blocks d).
