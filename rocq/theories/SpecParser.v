(** Independent vocabulary for the parser properties. *)
From Coq Require Import String.
From Verif Require Export SpecAst ParserConfig.
Import ListNotations.
Open Scope list_scope.

(** Text made of spaces, tabs and line endings (LF or CRLF) only. *)
Inductive blank : str -> Prop :=
| blank_nil : blank []
| blank_sp : forall c s, c = 32%N \/ c = 9%N -> blank s -> blank (c :: s)
| blank_lf : forall s, blank s -> blank (10%N :: s)
| blank_crlf : forall s, blank s -> blank (13%N :: 10%N :: s).

(** No two neighbouring text nodes. *)
Definition merged (l : list inline) : Prop :=
  forall a s t b, l <> a ++ IText s :: IText t :: b.
(** The inline lists directly below an inline / a block. *)
Definition inline_lists (i : inline) : list (list inline) :=
  match i with
  | IEmphasis c | IStrong c | IStrikethrough c => [c]
  | ILink l => [link_children l]
  | ILinkReference l => [lr_label l; lr_text l]
  | _ => []
  end.
Definition block_inline_lists (b : block) : list (list inline) :=
  match b with
  | BParagraph c => [c]
  | BHeading h => [h_content h]
  | BDefinition d => [ld_label d]
  | BTable t => concat (t_rows t)
  | _ => []
  end.

(** A rectangular table with a header row and at least one column. *)
Definition rectangular (t : table) : Prop :=
  t_rows t <> [] /\ t_alignments t <> [] /\
  Forall (fun row => List.length row = List.length (t_alignments t)) (t_rows t).

(** The behaviours that let nodes of a kind into the document. *)
Definition yields {A} (b : behavior A) : Prop :=
  match b with Ignore | Skip => False | _ => True end.
(** A user hook that keeps a property of nodes; [Parse], [Ignore] and [Skip] run no hook. *)
Definition hook_keeps {A} (P : A -> Prop) (b : behavior A) : Prop :=
  match b with
  | MapB f => forall x, P x -> P (f x)
  | FlatMap f => forall x, P x -> Forall P (f x)
  | _ => True
  end.
(** All user code (hooks and custom parsers) of a configuration keeps a
    property of inlines / of blocks. *)
Definition inline_user_code_keeps (P : inline -> Prop) (cfg : config) : Prop :=
  Forall (hook_keeps P)
    [i_autolink cfg; i_link cfg; i_footnote_reference cfg; i_reference_link cfg;
     i_hard_newline cfg; i_image cfg; i_code_span cfg; i_emphasis cfg;
     i_strikethrough cfg; i_text cfg] /\
  (forall p s r l, custom_inline cfg = Some p -> p s = Ok r l -> Forall P l).
Definition block_user_code_keeps (P : block -> Prop) (cfg : config) : Prop :=
  Forall (hook_keeps P)
    [b_blockquote cfg; b_github_alert cfg; b_heading_v1 cfg; b_heading_v2 cfg;
     b_thematic_break cfg; b_list cfg; b_code_block cfg; b_html_block cfg;
     b_footnote_definition cfg; b_link_definition cfg; b_table cfg; b_paragraph cfg] /\
  (forall p s r l, custom_block cfg = Some p -> p s = Ok r l -> Forall P l).

(** Every inline list below a block / in a document, at any depth. *)
Definition all_inline_lists (bs : list block) : list (list inline) :=
  let top := flat_map block_inline_lists bs in
  top ++ flat_map inline_lists (flat_map inline_preorder (concat top)).
Definition doc_inline_lists (d : document) : list (list inline) := all_inline_lists (doc_blocks d).

(** The switch of the configuration that governs a kind of inline / block.
    Texts (also built for environment variables and table padding) and
    paragraphs (also built by the setext heading parser) have no switch of
    their own: see C52.  HTML inlines are never built. *)
Definition inline_switch (cfg : config) (i : inline) : option (behavior inline) :=
  match i with
  | ILineBreak => Some (i_hard_newline cfg)
  | ICode _ => Some (i_code_span cfg)
  | ILink _ => Some (i_link cfg)
  | ILinkReference _ => Some (i_reference_link cfg)
  | IImage _ => Some (i_image cfg)
  | IEmphasis _ | IStrong _ => Some (i_emphasis cfg)
  | IStrikethrough _ => Some (i_strikethrough cfg)
  | IAutolink _ => Some (i_autolink cfg)
  | IFootnoteReference _ => Some (i_footnote_reference cfg)
  | IText _ | IHtml _ | IEmpty => None
  end.
Definition block_switch (cfg : config) (b : block) : option (behavior block) :=
  match b with
  | BHeading h => Some (match h_kind h with Atx _ => b_heading_v1 cfg | Setext _ => b_heading_v2 cfg end)
  | BThematicBreak => Some (b_thematic_break cfg)
  | BBlockQuote _ => Some (b_blockquote cfg)
  | BList _ => Some (b_list cfg)
  | BCodeBlock _ => Some (b_code_block cfg)
  | BHtmlBlock _ => Some (b_html_block cfg)
  | BDefinition _ => Some (b_link_definition cfg)
  | BTable _ => Some (b_table cfg)
  | BFootnoteDefinition _ => Some (b_footnote_definition cfg)
  | BGitHubAlert _ => Some (b_github_alert cfg)
  | BParagraph _ | BEmpty => None
  end.
Definition switched_on {A} (b : option (behavior A)) : Prop :=
  match b with Some Ignore | Some Skip => False | _ => True end.
(** every block / inline node of a list of blocks *)
Definition inlines_of (bs : list block) : list inline :=
  flat_map (fun b => flat_map inline_preorder (block_inlines b)) bs.

(** A configuration without user code: no hooks, no custom parsers. *)
Definition plain_behavior {A} (b : behavior A) : Prop :=
  match b with MapB _ | FlatMap _ => False | _ => True end.
Definition no_user_code (cfg : config) : Prop :=
  Forall plain_behavior
    [i_autolink cfg; i_link cfg; i_footnote_reference cfg; i_reference_link cfg;
     i_hard_newline cfg; i_image cfg; i_code_span cfg; i_emphasis cfg;
     i_strikethrough cfg; i_text cfg] /\
  Forall plain_behavior
    [b_blockquote cfg; b_github_alert cfg; b_heading_v1 cfg; b_heading_v2 cfg;
     b_thematic_break cfg; b_list cfg; b_code_block cfg; b_html_block cfg;
     b_footnote_definition cfg; b_link_definition cfg; b_table cfg; b_paragraph cfg] /\
  custom_inline cfg = None /\ custom_block cfg = None.

(** Joining two neighbouring texts, anywhere in a list. *)
Inductive join_texts : list inline -> list inline -> Prop :=
| join_here : forall a s t b, join_texts (a ++ IText s :: IText t :: b) (a ++ IText (s ++ t) :: b).
Inductive joins_to : list inline -> list inline -> Prop :=
| joins_refl : forall l, joins_to l l
| joins_step : forall l m n, join_texts l m -> joins_to m n -> joins_to l n.

(** Heading levels and list starts. *)
Definition heading_level_ok (b : block) : Prop :=
  match b with BHeading (Heading (Atx n) _) => (1 <= n <= 6)%N | _ => True end.
Definition table_ok (b : block) : Prop :=
  match b with BTable t => rectangular t | _ => True end.
Definition list_ok (b : block) : Prop :=
  match b with
  | BList (MkList k items) =>
      items <> [] /\ match k with Ordered n => (n <= u64_max)%N | Bullet _ => True end
  | _ => True
  end.

(** ** What hooks do
    The effect of a behaviour on one parsed element ... *)
Definition act {A} (empty : A) (b : behavior A) (x : A) : list A :=
  match b with
  | Parse | Ignore => [x]
  | Skip => [empty]
  | MapB f => [f x]
  | FlatMap f => f x
  end.
(** ... and on a whole tree, applied bottom-up: children first (adjacent texts
    joined again), then the node itself.  [join_adjacent] is given by the
    caller. *)
Section Act.
  Variable join_adjacent : list inline -> list inline.
  Variable cfg : config.
  Fixpoint act_inline (i : inline) : list inline :=
    match i with
    | IText s => [IText s]
    | ILineBreak => act IEmpty (i_hard_newline cfg) i
    | ICode s => act IEmpty (i_code_span cfg) i
    | IHtml s => [IHtml s]
    | ILink (Link d t c) => act IEmpty (i_link cfg) (ILink (Link d t (join_adjacent (flat_map act_inline c))))
    | ILinkReference (LinkReference l t) =>
        act IEmpty (i_reference_link cfg)
          (ILinkReference (LinkReference (join_adjacent (flat_map act_inline l)) (join_adjacent (flat_map act_inline t))))
    | IImage im => act IEmpty (i_image cfg) i
    | IEmphasis c => act IEmpty (i_emphasis cfg) (IEmphasis (join_adjacent (flat_map act_inline c)))
    | IStrong c => act IEmpty (i_emphasis cfg) (IStrong (join_adjacent (flat_map act_inline c)))
    | IStrikethrough c => act IEmpty (i_strikethrough cfg) (IStrikethrough (join_adjacent (flat_map act_inline c)))
    | IAutolink u => act IEmpty (i_autolink cfg) i
    | IFootnoteReference l => act IEmpty (i_footnote_reference cfg) i
    | IEmpty => [IEmpty]
    end.
  Definition act_inlines (l : list inline) : list inline := join_adjacent (flat_map act_inline l).
  (** hooks of the alert switch are not run *)
  Definition act_alert (b : block) : list block :=
    match b_github_alert cfg with Skip => [BEmpty] | _ => [b] end.
  Definition paragraph_switch : behavior block :=
    match b_heading_v2 cfg with Ignore => b_paragraph cfg | b => b end.
  Fixpoint act_block (b : block) : list block :=
    match b with
    | BParagraph c => act BEmpty paragraph_switch (BParagraph (act_inlines c))
    | BHeading (Heading (Atx n) c) => act BEmpty (b_heading_v1 cfg) (BHeading (Heading (Atx n) (act_inlines c)))
    | BHeading (Heading (Setext l) c) => act BEmpty (b_heading_v2 cfg) (BHeading (Heading (Setext l) (act_inlines c)))
    | BThematicBreak => act BEmpty (b_thematic_break cfg) BThematicBreak
    | BBlockQuote bs => act BEmpty (b_blockquote cfg) (BBlockQuote (flat_map act_block bs))
    | BList l => act BEmpty (b_list cfg)
        (BList (MkList (l_kind l) (map (fun it => ListItem (li_task it) (flat_map act_block (li_blocks it))) (l_items l))))
    | BCodeBlock c => act BEmpty (b_code_block cfg) b
    | BHtmlBlock s => act BEmpty (b_html_block cfg) b
    | BDefinition (LinkDefinition l d t) => act BEmpty (b_link_definition cfg) (BDefinition (LinkDefinition (act_inlines l) d t))
    | BTable (Table rows al) => act BEmpty (b_table cfg) (BTable (Table (map (map act_inlines) rows) al))
    | BFootnoteDefinition (FootnoteDefinition l bs) =>
        act BEmpty (b_footnote_definition cfg) (BFootnoteDefinition (FootnoteDefinition l (flat_map act_block bs)))
    | BGitHubAlert (GitHubAlert t bs) => act_alert (BGitHubAlert (GitHubAlert t (flat_map act_block bs)))
    | BEmpty => [BEmpty]
    end.
  Definition act_document (d : document) : document := Document (flat_map act_block (d_blocks d)).
End Act.

(** The configuration with all hooks and skips removed. *)
Definition unhook {A} (b : behavior A) : behavior A := match b with Ignore => Ignore | _ => Parse end.
Definition unhook_config (cfg : config) : config :=
  {| allow_no_space_in_headings := allow_no_space_in_headings cfg;
     html_entities := html_entities cfg;
     b_blockquote := unhook (b_blockquote cfg); b_github_alert := unhook (b_github_alert cfg);
     b_heading_v1 := unhook (b_heading_v1 cfg); b_heading_v2 := unhook (b_heading_v2 cfg);
     b_thematic_break := unhook (b_thematic_break cfg); b_list := unhook (b_list cfg);
     b_code_block := unhook (b_code_block cfg); b_html_block := unhook (b_html_block cfg);
     b_footnote_definition := unhook (b_footnote_definition cfg);
     b_link_definition := unhook (b_link_definition cfg);
     b_table := unhook (b_table cfg); b_paragraph := unhook (b_paragraph cfg);
     i_autolink := unhook (i_autolink cfg); i_link := unhook (i_link cfg);
     i_footnote_reference := unhook (i_footnote_reference cfg);
     i_reference_link := unhook (i_reference_link cfg);
     i_hard_newline := unhook (i_hard_newline cfg); i_image := unhook (i_image cfg);
     i_code_span := unhook (i_code_span cfg); i_emphasis := unhook (i_emphasis cfg);
     i_strikethrough := unhook (i_strikethrough cfg); i_text := unhook (i_text cfg);
     custom_block := None; custom_inline := None;
     punct_table := punct_table cfg; upper_table := upper_table cfg |}.

(** The hooks can be read off the tree: texts are not hooked (environment
    variables are texts that bypass the hook), a hook for emphasis treats
    [Strong [Emphasis c]] as a unit (for "***c***" it is run once, on the whole),
    and the setext and paragraph switches agree on paragraphs (the setext
    parser builds the ordinary paragraphs). *)
Definition tree_hooks (join_adjacent : list inline -> list inline) (cfg : config) : Prop :=
  custom_inline cfg = None /\ custom_block cfg = None /\
  unhook (i_text cfg) = i_text cfg /\
  (forall c, act IEmpty (i_emphasis cfg) (IStrong (join_adjacent (act IEmpty (i_emphasis cfg) (IEmphasis c))))
             = act IEmpty (i_emphasis cfg) (IStrong [IEmphasis c])) /\
  (b_heading_v2 cfg <> Ignore -> b_paragraph cfg <> Ignore -> forall c,
     act BEmpty (b_heading_v2 cfg) (BParagraph c) = act BEmpty (b_paragraph cfg) (BParagraph c)).

(** ** GitHub alert names *)
Definition standard_alerts : list (str * alert_type) :=
  [(lit "NOTE", Note); (lit "TIP", Tip); (lit "IMPORTANT", Important);
   (lit "WARNING", Warning); (lit "CAUTION", Caution)].
(** a letter followed by letters, digits and underscores (ASCII) *)
Definition identifier (name : str) : Prop :=
  exists c t, name = c :: t /\ is_alpha c = true
              /\ Forall (fun x => is_alnum x = true \/ x = ch "_") t.
(** which alert an upper-cased name stands for *)
Definition alert_of_name (name : str) (ty : alert_type) : Prop :=
  In (name, ty) standard_alerts \/
  (identifier name /\ ty = Custom name /\
   forall std t rest, In (std, t) standard_alerts -> name <> std ++ rest).

(** ** Code spans: line endings become spaces, then one space is removed on
    both sides if there is one on both sides and the content is not blank. *)
Inductive code_norm : str -> str -> Prop :=
| code_nil : code_norm [] []
| code_lf : forall s t, code_norm s t -> code_norm (10%N :: s) (32%N :: t)
| code_crlf : forall s t, code_norm s t -> code_norm (13%N :: 10%N :: s) (32%N :: t)
| code_char : forall c s t, c <> 10%N -> (c = 13%N -> forall u, s <> 10%N :: u) ->
    code_norm s t -> code_norm (c :: s) (c :: t).
Definition code_content (raw content : str) : Prop :=
  exists t, code_norm raw t /\
    ((t = 32%N :: content ++ [32%N] /\ Exists (fun c => is_whitespace c = false) content) \/
     (t = content /\ ~ (exists u, t = 32%N :: u ++ [32%N] /\ Exists (fun c => is_whitespace c = false) u))).

(** ** Code spans in the source: a run of [n] ticks, [raw], a run of [n] ticks,
    then [r].  No earlier place in [raw] closes the span (a place closes it if
    it starts with [n] ticks not followed by a tick), and [raw] holds no blank line. *)
Definition ticks (n : nat) : str := repeat 96%N n.
Definition closes (n : nat) (s : str) : Prop :=
  exists r, s = ticks n ++ r /\ forall r', r <> 96%N :: r'.
Definition at_blank_line (s : str) : Prop :=
  exists e1 w e2 r, s = e1 ++ w ++ e2 ++ r /\ In e1 [[10%N]; [13%N; 10%N]] /\ In e2 [[10%N]; [13%N; 10%N]]
    /\ Forall (fun c => c = 32%N \/ c = 9%N) w.
Definition code_span_source (n : nat) (raw r s : str) : Prop :=
  s = ticks n ++ raw ++ ticks n ++ r /\ 0 < n /\ raw <> [] /\
  (forall t, raw <> 96%N :: t) /\ (forall t, r <> 96%N :: t) /\
  (forall a b, raw = a ++ b -> b <> [] ->
     ~ closes n (b ++ ticks n ++ r) /\ ~ at_blank_line (b ++ ticks n ++ r)).

(** ** Labels in the source: any characters but "]", where "\]" stands for "]". *)
Inductive label_text : str -> str -> Prop :=
| label_nil : label_text [] []
| label_esc : forall s t, label_text s t -> label_text (92%N :: 93%N :: s) (93%N :: t)
| label_char : forall c s t, c <> 93%N -> (c = 92%N -> exists d u, s = d :: u /\ d <> 93%N) ->
    label_text s t -> label_text (c :: s) (c :: t).
Definition label_fits (l : str) : Prop :=
  List.length l < 1000 /\ Exists (fun c => c <> 32%N /\ c <> 10%N) l.

(** ** Replacing [Parse] by an identity hook. *)
Definition same_behavior {A} (b b' : behavior A) : Prop :=
  b' = b \/ (b = Parse /\ ((exists f, b' = MapB f /\ forall x, f x = x) \/
                           (exists f, b' = FlatMap f /\ forall x, f x = [x]))).
Definition same_config (c c' : config) : Prop :=
  (allow_no_space_in_headings c' = allow_no_space_in_headings c /\ html_entities c' = html_entities c /\
   custom_block c' = custom_block c /\ custom_inline c' = custom_inline c /\
   punct_table c' = punct_table c /\ upper_table c' = upper_table c) /\
  (same_behavior (b_blockquote c) (b_blockquote c') /\ same_behavior (b_github_alert c) (b_github_alert c') /\
   same_behavior (b_heading_v1 c) (b_heading_v1 c') /\ same_behavior (b_heading_v2 c) (b_heading_v2 c') /\
   same_behavior (b_thematic_break c) (b_thematic_break c') /\ same_behavior (b_list c) (b_list c') /\
   same_behavior (b_code_block c) (b_code_block c') /\ same_behavior (b_html_block c) (b_html_block c') /\
   same_behavior (b_footnote_definition c) (b_footnote_definition c') /\
   same_behavior (b_link_definition c) (b_link_definition c') /\
   same_behavior (b_table c) (b_table c') /\ same_behavior (b_paragraph c) (b_paragraph c')) /\
  (same_behavior (i_autolink c) (i_autolink c') /\ same_behavior (i_link c) (i_link c') /\
   same_behavior (i_footnote_reference c) (i_footnote_reference c') /\
   same_behavior (i_reference_link c) (i_reference_link c') /\
   same_behavior (i_hard_newline c) (i_hard_newline c') /\ same_behavior (i_image c) (i_image c') /\
   same_behavior (i_code_span c) (i_code_span c') /\ same_behavior (i_emphasis c) (i_emphasis c') /\
   same_behavior (i_strikethrough c) (i_strikethrough c') /\ same_behavior (i_text c) (i_text c')).

(** ** Plain text: no character with a role in the inline syntax, and no two
    spaces in a row (these could form a hard line break). *)
Definition special_chars : str := lit "<[\`*_~&".
Definition plain_char (c : char) : Prop := ~ In c special_chars.
Definition plain_text (s : str) : Prop :=
  Forall plain_char s /\ forall a b, s <> a ++ 32%N :: 32%N :: b.

(** A configuration with the GitHub alert switch replaced. *)
Definition same_except_alert (c : config) (b : behavior block) : config :=
  Config (allow_no_space_in_headings c) (html_entities c) (b_blockquote c) b
    (b_heading_v1 c) (b_heading_v2 c) (b_thematic_break c) (b_list c) (b_code_block c) (b_html_block c)
    (b_footnote_definition c) (b_link_definition c) (b_table c) (b_paragraph c)
    (i_autolink c) (i_link c) (i_footnote_reference c) (i_reference_link c) (i_hard_newline c) (i_image c)
    (i_code_span c) (i_emphasis c) (i_strikethrough c) (i_text c)
    (custom_block c) (custom_inline c) (punct_table c) (upper_table c).
