(** Specification for C86: which JSON values stand for a document.

    [value]: a document as a tree of records, choices, lists, strings and numbers;
    only names and contents, no layout.  [encodes v j]: the JSON value [j] writes
    [v] in one of the forms a reader of the usual JSON conventions takes. *)
From Coq Require Import String List NArith.
From Verif Require Export SpecSerde.
Import ListNotations.
Open Scope list_scope.

Inductive value : Type :=
| VNum (bits n : N)                       (** a number of a machine type *)
| VStr (s : str)
| VSeq (l : list value)
| VOpt (o : option value)
| VUnit (name : string)                   (** a choice without content *)
| VCase (name : string) (v : value)       (** a choice with content *)
| VRec (fs : list (string * value))       (** a record *)
| VUser (P : json -> Prop) (dflt : Prop). (** user data: [P] its JSON forms, [dflt]: it is the default *)

Definition keys (o : list (str * json)) : list str := map fst o.
(** what may be left out of an object; of a row *)
Definition may_miss (v : value) : Prop := match v with VOpt None => True | VUser _ d => d | _ => False end.
Definition may_drop (v : value) : Prop := match v with VUser _ d => d | _ => False end.

Inductive encodes : value -> json -> Prop :=
| e_num : forall bits n, (n < 2 ^ bits)%N -> encodes (VNum bits n) (JNum n)
| e_str : forall s, encodes (VStr s) (JStr s)
| e_seq : forall l js, Forall2 encodes l js -> encodes (VSeq l) (JArr js)
| e_none : encodes (VOpt None) JNull
| e_some : forall v j, encodes v j -> encodes (VOpt (Some v)) j
| e_unit : forall name, encodes (VUnit name) (JStr (lit name))
| e_unit_null : forall name, encodes (VUnit name) (JObj [(lit name, JNull)])
| e_case : forall name v j, encodes v j -> encodes (VCase name v) (JObj [(lit name, j)])
(** a record as an object: its fields in any order, each of them once, other
    fields in between; an absent option, default user data may be missing *)
| e_object : forall fs o,
    (forall name v, In (name, v) fs ->
       (exists before j after, o = before ++ (lit name, j) :: after /\ ~ In (lit name) (keys (before ++ after)) /\ encodes v j) \/
       (~ In (lit name) (keys o) /\ may_miss v)) ->
    encodes (VRec fs) (JObj o)
(** a record as a row: the fields in their order; default user data may be
    missing at the end *)
| e_row : forall given rest js,
    Forall2 (fun f j => encodes (snd f) j) given js -> Forall (fun f => may_drop (snd f)) rest ->
    encodes (VRec (given ++ rest)) (JArr js)
| e_user : forall (P : json -> Prop) d j, P j -> encodes (VUser P d) j.

(** ** The documents of [markdown_ppp::ast] *)
Definition v_opt (o : option str) : value := VOpt (option_map VStr o).
Definition v_setext (l : setext_heading) : value := VUnit match l with Level1 => "Level1" | Level2 => "Level2" end.
Definition v_heading_kind (k : heading_kind) : value :=
  match k with Atx n => VCase "Atx" (VNum 8 n) | Setext l => VCase "Setext" (v_setext l) end.
Definition v_bullet (k : list_bullet_kind) : value := VUnit match k with Dash => "Dash" | Star => "Star" | Plus => "Plus" end.
Definition v_list_kind (k : list_kind) : value :=
  match k with Ordered n => VCase "Ordered" (VRec [("start"%string, VNum 64 n)]) | Bullet b => VCase "Bullet" (v_bullet b) end.
Definition v_task (t : task_state) : value := VUnit match t with Incomplete => "Incomplete" | Complete => "Complete" end.
Definition v_code_kind (k : code_block_kind) : value :=
  match k with Indented => VUnit "Indented" | Fenced i => VCase "Fenced" (VRec [("info"%string, v_opt i)]) end.
Definition v_alignment (a : alignment) : value :=
  VUnit match a with ANone => "None" | ALeft => "Left" | ACenter => "Center" | ARight => "Right" end.
Definition v_alert_type (t : alert_type) : value :=
  match t with
  | Note => VUnit "Note" | Tip => VUnit "Tip" | Important => VUnit "Important"
  | Warning => VUnit "Warning" | Caution => VUnit "Caution" | Custom n => VCase "Custom" (VStr n)
  end.
Local Open Scope string_scope.
Fixpoint v_inline (i : inline) : value :=
  match i with
  | IText s => VCase "Text" (VStr s)
  | ILineBreak => VUnit "LineBreak"
  | ICode s => VCase "Code" (VStr s)
  | IHtml s => VCase "Html" (VStr s)
  | ILink (Link d t c) => VCase "Link" (VRec [("destination", VStr d); ("title", v_opt t); ("children", VSeq (map v_inline c))])
  | ILinkReference (LinkReference l t) => VCase "LinkReference" (VRec [("label", VSeq (map v_inline l)); ("text", VSeq (map v_inline t))])
  | IImage (Image d t a) => VCase "Image" (VRec [("destination", VStr d); ("title", v_opt t); ("alt", VStr a)])
  | IEmphasis c => VCase "Emphasis" (VSeq (map v_inline c))
  | IStrong c => VCase "Strong" (VSeq (map v_inline c))
  | IStrikethrough c => VCase "Strikethrough" (VSeq (map v_inline c))
  | IAutolink u => VCase "Autolink" (VStr u)
  | IFootnoteReference l => VCase "FootnoteReference" (VStr l)
  | IEmpty => VUnit "Empty"
  end.
Definition v_inlines (c : list inline) : value := VSeq (map v_inline c).
Definition v_rows {A} (v : A -> value) (r : list (list (list A))) : value := VSeq (map (fun row => VSeq (map (fun c => VSeq (map v c)) row)) r).
Fixpoint v_block (b : block) : value :=
  match b with
  | BParagraph c => VCase "Paragraph" (v_inlines c)
  | BHeading (Heading k c) => VCase "Heading" (VRec [("kind", v_heading_kind k); ("content", v_inlines c)])
  | BThematicBreak => VUnit "ThematicBreak"
  | BBlockQuote bs => VCase "BlockQuote" (VSeq (map v_block bs))
  | BList (MkList k items) =>
      VCase "List" (VRec [("kind", v_list_kind k);
        ("items", VSeq (map (fun it => match it with ListItem t bs =>
           VRec [("task", VOpt (option_map v_task t)); ("blocks", VSeq (map v_block bs))] end) items))])
  | BCodeBlock (CodeBlock k l) => VCase "CodeBlock" (VRec [("kind", v_code_kind k); ("literal", VStr l)])
  | BHtmlBlock s => VCase "HtmlBlock" (VStr s)
  | BDefinition (LinkDefinition l d t) => VCase "Definition" (VRec [("label", v_inlines l); ("destination", VStr d); ("title", v_opt t)])
  | BTable (Table r a) => VCase "Table" (VRec [("rows", v_rows v_inline r); ("alignments", VSeq (map v_alignment a))])
  | BFootnoteDefinition (FootnoteDefinition l bs) => VCase "FootnoteDefinition" (VRec [("label", VStr l); ("blocks", VSeq (map v_block bs))])
  | BGitHubAlert (GitHubAlert t bs) => VCase "GitHubAlert" (VRec [("alert_type", v_alert_type t); ("blocks", VSeq (map v_block bs))])
  | BEmpty => VUnit "Empty"
  end.
Definition v_document (d : document) : value := match d with Document bs => VRec [("blocks", VSeq (map v_block bs))] end.

(** ** The documents with user data: every node is a record whose last field is
    "user_data" *)
Section User.
  Context {T : Type} (u : T -> value).
  Definition noded (fs : list (string * value)) (d : T) : value := VRec (fs ++ [("user_data", u d)]).
  Fixpoint v_ginline (i : ginline T) : value :=
    match i with
    | GIText s d => VCase "Text" (noded [("content", VStr s)] d)
    | GILineBreak d => VCase "LineBreak" (noded [] d)
    | GICode s d => VCase "Code" (noded [("content", VStr s)] d)
    | GIHtml s d => VCase "Html" (noded [("content", VStr s)] d)
    | GILink (GLink a t c d) => VCase "Link" (noded [("destination", VStr a); ("title", v_opt t); ("children", VSeq (map v_ginline c))] d)
    | GILinkReference (GLinkReference l t d) => VCase "LinkReference" (noded [("label", VSeq (map v_ginline l)); ("text", VSeq (map v_ginline t))] d)
    | GIImage (GImage a t alt d) => VCase "Image" (noded [("destination", VStr a); ("title", v_opt t); ("alt", VStr alt)] d)
    | GIEmphasis c d => VCase "Emphasis" (noded [("content", VSeq (map v_ginline c))] d)
    | GIStrong c d => VCase "Strong" (noded [("content", VSeq (map v_ginline c))] d)
    | GIStrikethrough c d => VCase "Strikethrough" (noded [("content", VSeq (map v_ginline c))] d)
    | GIAutolink a d => VCase "Autolink" (noded [("url", VStr a)] d)
    | GIFootnoteReference l d => VCase "FootnoteReference" (noded [("label", VStr l)] d)
    | GIEmpty d => VCase "Empty" (noded [] d)
    end.
  Definition v_ginlines (c : list (ginline T)) : value := VSeq (map v_ginline c).
  Definition v_glist_kind (k : glist_kind) : value :=
    match k with GOrdered n => VCase "Ordered" (VRec [("start", VNum 64 n)]) | GBullet b => VCase "Bullet" (v_bullet b) end.
  Fixpoint v_gblock (b : gblock T) : value :=
    match b with
    | GBParagraph c d => VCase "Paragraph" (noded [("content", v_ginlines c)] d)
    | GBHeading (GHeading k c d) => VCase "Heading" (noded [("kind", v_heading_kind k); ("content", v_ginlines c)] d)
    | GBThematicBreak d => VCase "ThematicBreak" (noded [] d)
    | GBBlockQuote bs d => VCase "BlockQuote" (noded [("blocks", VSeq (map v_gblock bs))] d)
    | GBList (GMkList k items d) =>
        VCase "List" (noded [("kind", v_glist_kind k);
          ("items", VSeq (map (fun it => match it with GListItem t bs d' =>
             noded [("task", VOpt (option_map v_task t)); ("blocks", VSeq (map v_gblock bs))] d' end) items))] d)
    | GBCodeBlock (GCodeBlock k l d) => VCase "CodeBlock" (noded [("kind", v_code_kind k); ("literal", VStr l)] d)
    | GBHtmlBlock s d => VCase "HtmlBlock" (noded [("content", VStr s)] d)
    | GBDefinition (GLinkDefinition l a t d) => VCase "Definition" (noded [("label", v_ginlines l); ("destination", VStr a); ("title", v_opt t)] d)
    | GBTable (GTable r a d) => VCase "Table" (noded [("rows", v_rows v_ginline r); ("alignments", VSeq (map v_alignment a))] d)
    | GBFootnoteDefinition (GFootnoteDefinition l bs d) => VCase "FootnoteDefinition" (noded [("label", VStr l); ("blocks", VSeq (map v_gblock bs))] d)
    | GBGitHubAlert (GGitHubAlert t bs d) => VCase "GitHubAlert" (noded [("alert_type", v_alert_type t); ("blocks", VSeq (map v_gblock bs))] d)
    | GBEmpty d => VCase "Empty" (noded [] d)
    end.
  Definition v_gdocument (g : gdocument T) : value := match g with GDocument bs d => noded [("blocks", VSeq (map v_gblock bs))] d end.
End User.
