(** Serialisation (feature "ast-serde"): what the derived [serde::Serialize]
    and [serde::Deserialize] of /repo/src/ast/mod.rs, github_alerts.rs and
    generic.rs do, in the data model of a self-describing format (JSON).

    Derived code: a struct is a map from field names to values, in declaration
    order; an enum is externally tagged (a unit variant is its name, any other
    variant is a map with one entry, name to content); [Option] is null or the
    value; [Vec] is a sequence.  Reading a struct: from a map, fields in any order,
    unknown fields are ignored, a repeated field is an error, a missing field is an
    error unless it is an [Option] (then [None]) or marked [serde(default)]; from a
    sequence, the fields in declaration order, extra elements are an error, so is a
    missing element unless its field is marked [serde(default)].

    Simplification: the text of the format (escapes, numbers, nesting limits of a
    JSON reader) is not modelled. *)
From Coq Require Import String.
From Verif Require Export GenericAst.
Import ListNotations.
Open Scope list_scope.

Inductive json : Type :=
| JNull
| JBool (b : bool)
| JNum (n : N)
| JStr (s : str)
| JArr (l : list json)
| JObj (fs : list (str * json)).

(** ** Writing *)
Definition s_opt {A} (f : A -> json) (o : option A) : json := match o with Some a => f a | None => JNull end.
Definition s_vec {A} (f : A -> json) (l : list A) : json := JArr (map f l).
(** a unit variant; a variant with content; fields *)
Definition s_unit (tag : string) : json := JStr (lit tag).
Definition s_variant (tag : string) (body : json) : json := JObj [(lit tag, body)].
Definition fld (name : string) (v : json) : str * json := (lit name, v).

(** ** Reading *)
Definition r_all {A} (f : json -> option A) : list json -> option (list A) :=
  fix go l :=
  match l with
  | [] => Some []
  | j :: l' => match f j, go l' with Some a, Some r => Some (a :: r) | _, _ => None end
  end.
Definition r_vec {A} (f : json -> option A) (j : json) : option (list A) :=
  match j with JArr l => r_all f l | _ => None end.
Definition r_opt {A} (f : json -> option A) (j : json) : option (option A) :=
  match j with JNull => Some None | _ => option_map Some (f j) end.
Definition r_str (j : json) : option str := match j with JStr s => Some s | _ => None end.
(** [u8], [u64]: unsigned numbers up to [max] *)
Definition r_num (max : N) (j : json) : option N :=
  match j with JNum n => if (n <=? max)%N then Some n else None | _ => None end.
(** a field: [missing] is the value when it is absent *)
Inductive found (A : Type) := Absent | Once (o : option A) | Twice.
Arguments Absent {A}. Arguments Once {A}. Arguments Twice {A}.
Definition find_field {A} (f : json -> option A) (name : str) : list (str * json) -> found A :=
  fix go fs :=
  match fs with
  | [] => Absent
  | (k, v) :: fs' =>
      if str_eqb k name then match go fs' with Absent => Once (f v) | _ => Twice end
      else go fs'
  end.
(** a struct, as a map from names or as a sequence in declaration order: field
    [i], called [name]; [m], [m']: its value when the name, the element is missing *)
Definition elem {A} (m' : option A) (f : json -> option A) : nat -> list json -> option A :=
  fix go i l {struct l} :=
  match l with
  | [] => m'
  | j :: l' => match i with O => f j | S i' => go i' l' end
  end.
Definition field {A} (m m' : option A) (f : json -> option A) (name : string) (i : nat) (j : json) : option A :=
  match j with
  | JObj fs => match find_field f (lit name) fs with Absent => m | Once o => o | Twice => None end
  | JArr l => elem m' f i l
  | _ => None
  end.
(** a struct of [n] fields: no more elements than that *)
Definition sized (n : nat) (j : json) : bool :=
  match j with JObj _ => true | JArr l => Nat.leb (length l) n | _ => false end.
Notation need f name i j := (field None None f name i j) (only parsing).
Notation maybe f name i j := (field (Some None) None (r_opt f) name i j) (only parsing).
Notation "x <? o ;; k" := (match o with Some x => k | None => None end) (at level 60, o at next level, right associativity).

(** an enum: unit variants by name (or name to null), others by name and content *)
Definition unit_tag (j : json) : option str :=
  match j with JStr s => Some s | JObj [(s, JNull)] => Some s | _ => None end.
Definition is_tag (s : str) (tag : string) : bool := str_eqb s (lit tag).

(** ** Leaves: ast/mod.rs:105-122, 153-193, 202-223, 267-280; github_alerts.rs:1-17 *)
Definition s_setext (l : setext_heading) : json := match l with Level1 => s_unit "Level1" | Level2 => s_unit "Level2" end.
Definition r_setext (j : json) : option setext_heading :=
  s <? unit_tag j ;; if is_tag s "Level1" then Some Level1 else if is_tag s "Level2" then Some Level2 else None.
Definition s_heading_kind (k : heading_kind) : json :=
  match k with Atx n => s_variant "Atx" (JNum n) | Setext l => s_variant "Setext" (s_setext l) end.
Definition r_heading_kind (j : json) : option heading_kind :=
  match j with
  | JObj [(s, v)] =>
      if is_tag s "Atx" then n <? r_num 255 v ;; Some (Atx n)
      else if is_tag s "Setext" then l <? r_setext v ;; Some (Setext l) else None
  | _ => None
  end.
Definition s_bullet (k : list_bullet_kind) : json :=
  match k with Dash => s_unit "Dash" | Star => s_unit "Star" | Plus => s_unit "Plus" end.
Definition r_bullet (j : json) : option list_bullet_kind :=
  s <? unit_tag j ;;
  if is_tag s "Dash" then Some Dash else if is_tag s "Star" then Some Star else if is_tag s "Plus" then Some Plus else None.
Definition s_list_kind (k : list_kind) : json :=
  match k with
  | Ordered n => s_variant "Ordered" (JObj [fld "start" (JNum n)])
  | Bullet b => s_variant "Bullet" (s_bullet b)
  end.
Definition r_list_kind (j : json) : option list_kind :=
  match j with
  | JObj [(s, v)] =>
      if is_tag s "Ordered" then if sized 1 v then n <? need (r_num u64_max) "start" 0 v ;; Some (Ordered n) else None
      else if is_tag s "Bullet" then b <? r_bullet v ;; Some (Bullet b) else None
  | _ => None
  end.
Definition s_task (t : task_state) : json := match t with Incomplete => s_unit "Incomplete" | Complete => s_unit "Complete" end.
Definition r_task (j : json) : option task_state :=
  s <? unit_tag j ;; if is_tag s "Incomplete" then Some Incomplete else if is_tag s "Complete" then Some Complete else None.
Definition s_code_kind (k : code_block_kind) : json :=
  match k with
  | Indented => s_unit "Indented"
  | Fenced info => s_variant "Fenced" (JObj [fld "info" (s_opt JStr info)])
  end.
Definition r_code_kind (j : json) : option code_block_kind :=
  match unit_tag j with
  | Some s => if is_tag s "Indented" then Some Indented else None
  | None =>
      match j with
      | JObj [(s, v)] =>
          if is_tag s "Fenced" then if sized 1 v then i <? maybe r_str "info" 0 v ;; Some (Fenced i) else None else None
      | _ => None
      end
  end.
Definition s_alignment (a : alignment) : json :=
  match a with ANone => s_unit "None" | ALeft => s_unit "Left" | ACenter => s_unit "Center" | ARight => s_unit "Right" end.
Definition r_alignment (j : json) : option alignment :=
  s <? unit_tag j ;;
  if is_tag s "None" then Some ANone else if is_tag s "Left" then Some ALeft
  else if is_tag s "Center" then Some ACenter else if is_tag s "Right" then Some ARight else None.
Definition s_alert_type (t : alert_type) : json :=
  match t with
  | Note => s_unit "Note" | Tip => s_unit "Tip" | Important => s_unit "Important"
  | Warning => s_unit "Warning" | Caution => s_unit "Caution" | Custom n => s_variant "Custom" (JStr n)
  end.
Definition r_alert_type (j : json) : option alert_type :=
  match unit_tag j with
  | Some s =>
      if is_tag s "Note" then Some Note else if is_tag s "Tip" then Some Tip
      else if is_tag s "Important" then Some Important else if is_tag s "Warning" then Some Warning
      else if is_tag s "Caution" then Some Caution else None
  | None =>
      match j with
      | JObj [(s, v)] => if is_tag s "Custom" then n <? r_str v ;; Some (Custom n) else None
      | _ => None
      end
  end.

(** ** The plain tree: ast/mod.rs *)
(** ast/mod.rs:346-380 *)
Definition s_image (im : image) : json :=
  JObj [fld "destination" (JStr (image_destination im)); fld "title" (s_opt JStr (image_title im)); fld "alt" (JStr (image_alt im))].
Definition r_image (j : json) : option image :=
  if sized 3 j then d <? need r_str "destination" 0 j ;; t <? maybe r_str "title" 1 j ;; a <? need r_str "alt" 2 j ;;
  Some (Image d t a) else None.
(** ast/mod.rs:304-341 *)
Fixpoint s_inline (i : inline) : json :=
  match i with
  | IText s => s_variant "Text" (JStr s)
  | ILineBreak => s_unit "LineBreak"
  | ICode s => s_variant "Code" (JStr s)
  | IHtml s => s_variant "Html" (JStr s)
  | ILink (Link d t c) =>
      s_variant "Link" (JObj [fld "destination" (JStr d); fld "title" (s_opt JStr t); fld "children" (JArr (map s_inline c))])
  | ILinkReference (LinkReference l t) =>
      s_variant "LinkReference" (JObj [fld "label" (JArr (map s_inline l)); fld "text" (JArr (map s_inline t))])
  | IImage im => s_variant "Image" (s_image im)
  | IEmphasis c => s_variant "Emphasis" (JArr (map s_inline c))
  | IStrong c => s_variant "Strong" (JArr (map s_inline c))
  | IStrikethrough c => s_variant "Strikethrough" (JArr (map s_inline c))
  | IAutolink u => s_variant "Autolink" (JStr u)
  | IFootnoteReference l => s_variant "FootnoteReference" (JStr l)
  | IEmpty => s_unit "Empty"
  end.
Fixpoint r_inline (j : json) : option inline :=
  match j with
  | JStr s => if is_tag s "LineBreak" then Some ILineBreak else if is_tag s "Empty" then Some IEmpty else None
  | JObj [(s, v)] =>
      if is_tag s "LineBreak" then match v with JNull => Some ILineBreak | _ => None end
      else if is_tag s "Empty" then match v with JNull => Some IEmpty | _ => None end
      else if is_tag s "Text" then t <? r_str v ;; Some (IText t)
      else if is_tag s "Code" then t <? r_str v ;; Some (ICode t)
      else if is_tag s "Html" then t <? r_str v ;; Some (IHtml t)
      else if is_tag s "Link" then
        if sized 3 v then
            d <? need r_str "destination" 0 v ;; t <? maybe r_str "title" 1 v ;;
            c <? need (fun x => match x with JArr l => r_all r_inline l | _ => None end) "children" 2 v ;;
            Some (ILink (Link d t c))
        else None
      else if is_tag s "LinkReference" then
        if sized 2 v then
            l <? need (fun x => match x with JArr l => r_all r_inline l | _ => None end) "label" 0 v ;;
            t <? need (fun x => match x with JArr l => r_all r_inline l | _ => None end) "text" 1 v ;;
            Some (ILinkReference (LinkReference l t))
        else None
      else if is_tag s "Image" then im <? r_image v ;; Some (IImage im)
      else if is_tag s "Emphasis" then match v with JArr l => c <? r_all r_inline l ;; Some (IEmphasis c) | _ => None end
      else if is_tag s "Strong" then match v with JArr l => c <? r_all r_inline l ;; Some (IStrong c) | _ => None end
      else if is_tag s "Strikethrough" then match v with JArr l => c <? r_all r_inline l ;; Some (IStrikethrough c) | _ => None end
      else if is_tag s "Autolink" then t <? r_str v ;; Some (IAutolink t)
      else if is_tag s "FootnoteReference" then t <? r_str v ;; Some (IFootnoteReference t)
      else None
  | _ => None
  end.
Definition s_inlines (l : list inline) : json := s_vec s_inline l.
Definition r_inlines : json -> option (list inline) := r_vec r_inline.
(** ast/mod.rs:94-100, 202-208, 231-240, 250-262 *)
Definition s_heading (h : heading) : json :=
  JObj [fld "kind" (s_heading_kind (h_kind h)); fld "content" (s_inlines (h_content h))].
Definition r_heading (j : json) : option heading :=
  if sized 2 j then k <? need r_heading_kind "kind" 0 j ;; c <? need r_inlines "content" 1 j ;; Some (Heading k c) else None.
Definition s_code_block (c : code_block) : json :=
  JObj [fld "kind" (s_code_kind (cb_kind c)); fld "literal" (JStr (cb_literal c))].
Definition r_code_block (j : json) : option code_block :=
  if sized 2 j then k <? need r_code_kind "kind" 0 j ;; l <? need r_str "literal" 1 j ;; Some (CodeBlock k l) else None.
Definition s_link_definition (d : link_definition) : json :=
  JObj [fld "label" (s_inlines (ld_label d)); fld "destination" (JStr (ld_destination d)); fld "title" (s_opt JStr (ld_title d))].
Definition r_link_definition (j : json) : option link_definition :=
  if sized 3 j then l <? need r_inlines "label" 0 j ;; d <? need r_str "destination" 1 j ;; t <? maybe r_str "title" 2 j ;;
  Some (LinkDefinition l d t) else None.
Definition s_table (t : table) : json :=
  JObj [fld "rows" (s_vec (s_vec s_inlines) (t_rows t)); fld "alignments" (s_vec s_alignment (t_alignments t))].
Definition r_table (j : json) : option table :=
  if sized 2 j then r <? need (r_vec (r_vec r_inlines)) "rows" 0 j ;; a <? need (r_vec r_alignment) "alignments" 1 j ;;
  Some (Table r a) else None.
(** ast/mod.rs:53-88, 131-137, 176-182, 289-295; github_alerts.rs:20-27 *)
Fixpoint s_block (b : block) : json :=
  match b with
  | BParagraph c => s_variant "Paragraph" (s_inlines c)
  | BHeading h => s_variant "Heading" (s_heading h)
  | BThematicBreak => s_unit "ThematicBreak"
  | BBlockQuote bs => s_variant "BlockQuote" (JArr (map s_block bs))
  | BList (MkList k items) =>
      s_variant "List" (JObj [fld "kind" (s_list_kind k);
        fld "items" (JArr (map (fun it => match it with ListItem t bs =>
          JObj [fld "task" (s_opt s_task t); fld "blocks" (JArr (map s_block bs))] end) items))])
  | BCodeBlock c => s_variant "CodeBlock" (s_code_block c)
  | BHtmlBlock s => s_variant "HtmlBlock" (JStr s)
  | BDefinition d => s_variant "Definition" (s_link_definition d)
  | BTable t => s_variant "Table" (s_table t)
  | BFootnoteDefinition (FootnoteDefinition l bs) =>
      s_variant "FootnoteDefinition" (JObj [fld "label" (JStr l); fld "blocks" (JArr (map s_block bs))])
  | BGitHubAlert (GitHubAlert t bs) =>
      s_variant "GitHubAlert" (JObj [fld "alert_type" (s_alert_type t); fld "blocks" (JArr (map s_block bs))])
  | BEmpty => s_unit "Empty"
  end.
Fixpoint r_block (j : json) : option block :=
  match j with
  | JStr s => if is_tag s "ThematicBreak" then Some BThematicBreak else if is_tag s "Empty" then Some BEmpty else None
  | JObj [(s, v)] =>
      if is_tag s "ThematicBreak" then match v with JNull => Some BThematicBreak | _ => None end
      else if is_tag s "Empty" then match v with JNull => Some BEmpty | _ => None end
      else if is_tag s "Paragraph" then c <? r_inlines v ;; Some (BParagraph c)
      else if is_tag s "Heading" then h <? r_heading v ;; Some (BHeading h)
      else if is_tag s "BlockQuote" then match v with JArr l => bs <? r_all r_block l ;; Some (BBlockQuote bs) | _ => None end
      else if is_tag s "List" then
        if sized 2 v then
            k <? need r_list_kind "kind" 0 v ;;
            items <? need (fun x => match x with
              | JArr l => r_all (fun y => if sized 2 y then
                      t <? maybe r_task "task" 0 y ;;
                      bs <? need (fun z => match z with JArr l => r_all r_block l | _ => None end) "blocks" 1 y ;;
                      Some (ListItem t bs)
                  else None) l
              | _ => None end) "items" 1 v ;;
            Some (BList (MkList k items))
        else None
      else if is_tag s "CodeBlock" then c <? r_code_block v ;; Some (BCodeBlock c)
      else if is_tag s "HtmlBlock" then t <? r_str v ;; Some (BHtmlBlock t)
      else if is_tag s "Definition" then d <? r_link_definition v ;; Some (BDefinition d)
      else if is_tag s "Table" then t <? r_table v ;; Some (BTable t)
      else if is_tag s "FootnoteDefinition" then
        if sized 2 v then
            l <? need r_str "label" 0 v ;;
            bs <? need (fun z => match z with JArr l => r_all r_block l | _ => None end) "blocks" 1 v ;;
            Some (BFootnoteDefinition (FootnoteDefinition l bs))
        else None
      else if is_tag s "GitHubAlert" then
        if sized 2 v then
            t <? need r_alert_type "alert_type" 0 v ;;
            bs <? need (fun z => match z with JArr l => r_all r_block l | _ => None end) "blocks" 1 v ;;
            Some (BGitHubAlert (GitHubAlert t bs))
        else None
      else None
  | _ => None
  end.
(** ast/mod.rs:41-44 *)
Definition s_document (d : document) : json := JObj [fld "blocks" (s_vec s_block (d_blocks d))].
Definition r_document (j : json) : option document :=
  if sized 1 j then bs <? need (r_vec r_block) "blocks" 0 j ;; Some (Document bs) else None.

(** ** The tree with user data: generic.rs *)
(** generic.rs:160-165: the same two variants *)
Definition s_glist_kind (k : glist_kind) : json := s_list_kind (from_glist_kind k).
Definition r_glist_kind (j : json) : option glist_kind := option_map to_glist_kind (r_list_kind j).

Section Generic.
  Context {T : Type} (s_data : T -> json) (r_data : json -> option T) (dflt : T).
  (** every node: "user_data", [serde(default)] *)
  Definition data (d : T) : str * json := fld "user_data" (s_data d).
  Definition r_user (i : nat) (j : json) : option T := field (Some dflt) (Some dflt) r_data "user_data" i j.

  (** generic.rs:295-374, 377-423 *)
  Fixpoint s_ginline (i : ginline T) : json :=
    match i with
    | GIText s d => s_variant "Text" (JObj [fld "content" (JStr s); data d])
    | GILineBreak d => s_variant "LineBreak" (JObj [data d])
    | GICode s d => s_variant "Code" (JObj [fld "content" (JStr s); data d])
    | GIHtml s d => s_variant "Html" (JObj [fld "content" (JStr s); data d])
    | GILink (GLink u t c d) =>
        s_variant "Link" (JObj [fld "destination" (JStr u); fld "title" (s_opt JStr t);
                                fld "children" (JArr (map s_ginline c)); data d])
    | GILinkReference (GLinkReference l t d) =>
        s_variant "LinkReference" (JObj [fld "label" (JArr (map s_ginline l)); fld "text" (JArr (map s_ginline t)); data d])
    | GIImage (GImage u t a d) =>
        s_variant "Image" (JObj [fld "destination" (JStr u); fld "title" (s_opt JStr t); fld "alt" (JStr a); data d])
    | GIEmphasis c d => s_variant "Emphasis" (JObj [fld "content" (JArr (map s_ginline c)); data d])
    | GIStrong c d => s_variant "Strong" (JObj [fld "content" (JArr (map s_ginline c)); data d])
    | GIStrikethrough c d => s_variant "Strikethrough" (JObj [fld "content" (JArr (map s_ginline c)); data d])
    | GIAutolink u d => s_variant "Autolink" (JObj [fld "url" (JStr u); data d])
    | GIFootnoteReference l d => s_variant "FootnoteReference" (JObj [fld "label" (JStr l); data d])
    | GIEmpty d => s_variant "Empty" (JObj [data d])
    end.
  Fixpoint r_ginline (j : json) : option (ginline T) :=
    match j with
    | JObj [(s, v)] =>
        if is_tag s "Text" then if sized 2 v then t <? need r_str "content" 0 v ;; d <? r_user 1 v ;; Some (GIText t d) else None
        else if is_tag s "LineBreak" then if sized 1 v then d <? r_user 0 v ;; Some (GILineBreak d) else None
        else if is_tag s "Code" then if sized 2 v then t <? need r_str "content" 0 v ;; d <? r_user 1 v ;; Some (GICode t d) else None
        else if is_tag s "Html" then if sized 2 v then t <? need r_str "content" 0 v ;; d <? r_user 1 v ;; Some (GIHtml t d) else None
        else if is_tag s "Link" then if sized 4 v then
          u <? need r_str "destination" 0 v ;; t <? maybe r_str "title" 1 v ;;
          c <? need (fun x => match x with JArr l => r_all r_ginline l | _ => None end) "children" 2 v ;;
          d <? r_user 3 v ;; Some (GILink (GLink u t c d)) else None
        else if is_tag s "LinkReference" then if sized 3 v then
          l <? need (fun x => match x with JArr l => r_all r_ginline l | _ => None end) "label" 0 v ;;
          t <? need (fun x => match x with JArr l => r_all r_ginline l | _ => None end) "text" 1 v ;;
          d <? r_user 2 v ;; Some (GILinkReference (GLinkReference l t d)) else None
        else if is_tag s "Image" then if sized 4 v then
          u <? need r_str "destination" 0 v ;; t <? maybe r_str "title" 1 v ;; a <? need r_str "alt" 2 v ;;
          d <? r_user 3 v ;; Some (GIImage (GImage u t a d)) else None
        else if is_tag s "Emphasis" then if sized 2 v then
          c <? need (fun x => match x with JArr l => r_all r_ginline l | _ => None end) "content" 0 v ;;
          d <? r_user 1 v ;; Some (GIEmphasis c d) else None
        else if is_tag s "Strong" then if sized 2 v then
          c <? need (fun x => match x with JArr l => r_all r_ginline l | _ => None end) "content" 0 v ;;
          d <? r_user 1 v ;; Some (GIStrong c d) else None
        else if is_tag s "Strikethrough" then if sized 2 v then
          c <? need (fun x => match x with JArr l => r_all r_ginline l | _ => None end) "content" 0 v ;;
          d <? r_user 1 v ;; Some (GIStrikethrough c d) else None
        else if is_tag s "Autolink" then if sized 2 v then t <? need r_str "url" 0 v ;; d <? r_user 1 v ;; Some (GIAutolink t d) else None
        else if is_tag s "FootnoteReference" then if sized 2 v then t <? need r_str "label" 0 v ;; d <? r_user 1 v ;; Some (GIFootnoteReference t d) else None
        else if is_tag s "Empty" then if sized 1 v then d <? r_user 0 v ;; Some (GIEmpty d) else None
        else None
    | _ => None
    end.
  Definition s_ginlines (l : list (ginline T)) : json := s_vec s_ginline l.
  Definition r_ginlines : json -> option (list (ginline T)) := r_vec r_ginline.
  (** generic.rs:125-137, 190-200, 209-222, 232-248 *)
  Definition s_gheading (h : gheading T) : json :=
    JObj [fld "kind" (s_heading_kind (gh_kind h)); fld "content" (s_ginlines (gh_content h)); data (gh_data h)].
  Definition r_gheading (j : json) : option (gheading T) :=
    if sized 3 j then k <? need r_heading_kind "kind" 0 j ;; c <? need r_ginlines "content" 1 j ;; d <? r_user 2 j ;;
    Some (GHeading k c d) else None.
  Definition s_gcode_block (c : gcode_block T) : json :=
    JObj [fld "kind" (s_code_kind (gcb_kind c)); fld "literal" (JStr (gcb_literal c)); data (gcb_data c)].
  Definition r_gcode_block (j : json) : option (gcode_block T) :=
    if sized 3 j then k <? need r_code_kind "kind" 0 j ;; l <? need r_str "literal" 1 j ;; d <? r_user 2 j ;;
    Some (GCodeBlock k l d) else None.
  Definition s_glink_definition (x : glink_definition T) : json :=
    JObj [fld "label" (s_ginlines (gld_label x)); fld "destination" (JStr (gld_destination x));
          fld "title" (s_opt JStr (gld_title x)); data (gld_data x)].
  Definition r_glink_definition (j : json) : option (glink_definition T) :=
    if sized 4 j then l <? need r_ginlines "label" 0 j ;; u <? need r_str "destination" 1 j ;; t <? maybe r_str "title" 2 j ;;
    d <? r_user 3 j ;; Some (GLinkDefinition l u t d) else None.
  Definition s_gtable (t : gtable T) : json :=
    JObj [fld "rows" (s_vec (s_vec s_ginlines) (gt_rows t)); fld "alignments" (s_vec s_alignment (gt_alignments t)); data (gt_data t)].
  Definition r_gtable (j : json) : option (gtable T) :=
    if sized 3 j then r <? need (r_vec (r_vec r_ginlines)) "rows" 0 j ;; a <? need (r_vec r_alignment) "alignments" 1 j ;;
    d <? r_user 2 j ;; Some (GTable r a d) else None.
  (** generic.rs:66-119, 144-154, 171-181, 257-267, 276-286 *)
  Fixpoint s_gblock (b : gblock T) : json :=
    match b with
    | GBParagraph c d => s_variant "Paragraph" (JObj [fld "content" (s_ginlines c); data d])
    | GBHeading h => s_variant "Heading" (s_gheading h)
    | GBThematicBreak d => s_variant "ThematicBreak" (JObj [data d])
    | GBBlockQuote bs d => s_variant "BlockQuote" (JObj [fld "blocks" (JArr (map s_gblock bs)); data d])
    | GBList (GMkList k items d) =>
        s_variant "List" (JObj [fld "kind" (s_glist_kind k);
          fld "items" (JArr (map (fun it => match it with GListItem t bs d =>
            JObj [fld "task" (s_opt s_task t); fld "blocks" (JArr (map s_gblock bs)); data d] end) items)); data d])
    | GBCodeBlock c => s_variant "CodeBlock" (s_gcode_block c)
    | GBHtmlBlock s d => s_variant "HtmlBlock" (JObj [fld "content" (JStr s); data d])
    | GBDefinition x => s_variant "Definition" (s_glink_definition x)
    | GBTable t => s_variant "Table" (s_gtable t)
    | GBFootnoteDefinition (GFootnoteDefinition l bs d) =>
        s_variant "FootnoteDefinition" (JObj [fld "label" (JStr l); fld "blocks" (JArr (map s_gblock bs)); data d])
    | GBGitHubAlert (GGitHubAlert t bs d) =>
        s_variant "GitHubAlert" (JObj [fld "alert_type" (s_alert_type t); fld "blocks" (JArr (map s_gblock bs)); data d])
    | GBEmpty d => s_variant "Empty" (JObj [data d])
    end.
  Fixpoint r_gblock (j : json) : option (gblock T) :=
    match j with
    | JObj [(s, v)] =>
        if is_tag s "Heading" then h <? r_gheading v ;; Some (GBHeading h)
        else if is_tag s "CodeBlock" then c <? r_gcode_block v ;; Some (GBCodeBlock c)
        else if is_tag s "Definition" then x <? r_glink_definition v ;; Some (GBDefinition x)
        else if is_tag s "Table" then t <? r_gtable v ;; Some (GBTable t)
        else if is_tag s "Paragraph" then if sized 2 v then c <? need r_ginlines "content" 0 v ;; d <? r_user 1 v ;; Some (GBParagraph c d) else None
        else if is_tag s "ThematicBreak" then if sized 1 v then d <? r_user 0 v ;; Some (GBThematicBreak d) else None
        else if is_tag s "BlockQuote" then if sized 2 v then
          bs <? need (fun z => match z with JArr l => r_all r_gblock l | _ => None end) "blocks" 0 v ;;
          d <? r_user 1 v ;; Some (GBBlockQuote bs d) else None
        else if is_tag s "List" then if sized 3 v then
          k <? need r_glist_kind "kind" 0 v ;;
          items <? need (fun x => match x with
            | JArr l => r_all (fun y => if sized 3 y then
                    t <? maybe r_task "task" 0 y ;;
                    bs <? need (fun z => match z with JArr l => r_all r_gblock l | _ => None end) "blocks" 1 y ;;
                    d <? r_user 2 y ;; Some (GListItem t bs d)
                else None) l
            | _ => None end) "items" 1 v ;;
          d <? r_user 2 v ;; Some (GBList (GMkList k items d)) else None
        else if is_tag s "HtmlBlock" then if sized 2 v then t <? need r_str "content" 0 v ;; d <? r_user 1 v ;; Some (GBHtmlBlock t d) else None
        else if is_tag s "FootnoteDefinition" then if sized 3 v then
          l <? need r_str "label" 0 v ;;
          bs <? need (fun z => match z with JArr l => r_all r_gblock l | _ => None end) "blocks" 1 v ;;
          d <? r_user 2 v ;; Some (GBFootnoteDefinition (GFootnoteDefinition l bs d)) else None
        else if is_tag s "GitHubAlert" then if sized 3 v then
          t <? need r_alert_type "alert_type" 0 v ;;
          bs <? need (fun z => match z with JArr l => r_all r_gblock l | _ => None end) "blocks" 1 v ;;
          d <? r_user 2 v ;; Some (GBGitHubAlert (GGitHubAlert t bs d)) else None
        else if is_tag s "Empty" then if sized 1 v then d <? r_user 0 v ;; Some (GBEmpty d) else None
        else None
    | _ => None
    end.
  (** generic.rs:50-57 *)
  Definition s_gdocument (g : gdocument T) : json := JObj [fld "blocks" (s_vec s_gblock (gd_blocks g)); data (gd_data g)].
  Definition r_gdocument (j : json) : option (gdocument T) :=
    if sized 2 j then bs <? need (r_vec r_gblock) "blocks" 0 j ;; d <? r_user 1 j ;; Some (GDocument bs d) else None.
End Generic.
