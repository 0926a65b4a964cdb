(** Specification for C101: texts in different alphabets. *)
From Coq Require Import String NArith.
From Verif Require Export SpecParser.
Import ListNotations.
Open Scope list_scope.

(** an exchange of characters: ASCII characters are kept, whitespace and
    punctuation remain so; [g] undoes [f] *)
Record exchange (cfg : config) (f g : char -> char) : Prop := {
  ex_back : forall c, g (f c) = c;
  ex_forth : forall c, f (g c) = c;
  ex_ascii : forall c, (c < 128)%N -> f c = c;
  ex_space : forall c, is_whitespace (f c) = is_whitespace c;
  ex_punct : forall c, punct_table cfg (f c) = punct_table cfg c;
  ex_upper : forall c, (128 <= c)%N -> upper_table cfg (f c) = map f (upper_table cfg c)
}.

(** the same document with the characters of all its strings exchanged *)
Section Spell.
  Variable f : char -> char.
  Fixpoint spell_inline (i : inline) : inline :=
    match i with
    | IText s => IText (map f s)
    | ILineBreak => ILineBreak
    | ICode s => ICode (map f s)
    | IHtml s => IHtml (map f s)
    | ILink l => ILink (Link (map f (link_destination l)) (option_map (map f) (link_title l)) (map spell_inline (link_children l)))
    | ILinkReference l => ILinkReference (LinkReference (map spell_inline (lr_label l)) (map spell_inline (lr_text l)))
    | IImage im => IImage (Image (map f (image_destination im)) (option_map (map f) (image_title im)) (map f (image_alt im)))
    | IEmphasis c => IEmphasis (map spell_inline c)
    | IStrong c => IStrong (map spell_inline c)
    | IStrikethrough c => IStrikethrough (map spell_inline c)
    | IAutolink s => IAutolink (map f s)
    | IFootnoteReference s => IFootnoteReference (map f s)
    | IEmpty => IEmpty
    end.
  Definition spell_code (c : code_block) : code_block :=
    match c with
    | CodeBlock Indented s => CodeBlock Indented (map f s)
    | CodeBlock (Fenced info) s => CodeBlock (Fenced (option_map (map f) info)) (map f s)
    end.
  Definition spell_alert (t : alert_type) : alert_type := match t with Custom s => Custom (map f s) | _ => t end.
  Fixpoint spell_block (b : block) : block :=
    match b with
    | BParagraph c => BParagraph (map spell_inline c)
    | BHeading h => BHeading (Heading (h_kind h) (map spell_inline (h_content h)))
    | BThematicBreak => BThematicBreak
    | BBlockQuote bs => BBlockQuote (map spell_block bs)
    | BList l => BList (MkList (l_kind l) (map (fun it => ListItem (li_task it) (map spell_block (li_blocks it))) (l_items l)))
    | BCodeBlock c => BCodeBlock (spell_code c)
    | BHtmlBlock s => BHtmlBlock (map f s)
    | BDefinition d => BDefinition (LinkDefinition (map spell_inline (ld_label d)) (map f (ld_destination d)) (option_map (map f) (ld_title d)))
    | BTable t => BTable (Table (map (map (map spell_inline)) (t_rows t)) (t_alignments t))
    | BFootnoteDefinition x => BFootnoteDefinition (FootnoteDefinition (map f (fd_label x)) (map spell_block (fd_blocks x)))
    | BGitHubAlert a => BGitHubAlert (GitHubAlert (spell_alert (ga_type a)) (map spell_block (ga_blocks a)))
    | BEmpty => BEmpty
    end.
  Definition spell (d : document) : document := Document (map spell_block (d_blocks d)).
End Spell.
