(** Specification for C68: filled lines. *)
From Coq Require Import String.
From Verif Require Export SpecMd.
Import ListNotations.
Open Scope list_scope.

Section Fill.
Variable uwidth : str -> nat.
Variable udigit : char -> bool.
Variable width : nat.
(** the columns a line of words takes, with single blanks between them *)
Definition line_columns (ws : list str) : nat := list_sum (map (columns uwidth) ws) + (List.length ws - 1).
(** a line that cannot be broken: only its first word may begin a line *)
Definition unbreakable (ws : list str) : Prop := Forall (unsafe_word udigit) (tl ws).
Definition starts_safe (ws : list str) : Prop := match ws with [] => True | w :: _ => ~ unsafe_word udigit w end.
(** the words [next] after a line are moved to the next line because the first
    unbreakable ones of them do not fit any more *)
Definition no_room (line next : list str) : Prop :=
  exists chunk rest, next = chunk ++ rest /\ chunk <> [] /\ unbreakable chunk /\ starts_safe rest /\
    width < line_columns line + 1 + line_columns chunk.
(** Lines are as long as the width allows, not longer unless they cannot be
    broken, and begin with words that may begin a line. *)
Inductive filled : list (list str) -> Prop :=
| filled_last : forall l, l <> [] -> line_columns l <= width \/ unbreakable l -> filled [l]
| filled_more : forall l next ls, l <> [] -> line_columns l <= width \/ unbreakable l ->
    no_room l next -> starts_safe next -> filled (next :: ls) -> filled (l :: next :: ls).
End Fill.
(** the text of lines of words *)
Definition text_lines (ls : list (list str)) : list str := map (join [c_sp]) ls.

(** ** Paragraphs of any inlines.  They are printed as texts that cannot be
    broken and gaps, where a line may be broken; a gap is one blank otherwise. *)
Inductive atom := Solid (s : str) | Gap.
(** the words of a text: before an unsafe word the line is not broken *)
Fixpoint word_atoms (unsafe : str -> bool) (l : list (option str)) : list atom :=
  match l with
  | [] => []
  | Some w :: l' => Solid w :: word_atoms unsafe l'
  | None :: l' => match l' with
                  | Some w :: _ => if unsafe w then Solid [c_sp] else Gap
                  | _ => Gap
                  end :: word_atoms unsafe l'
  end.
Definition title_atoms (t : option str) : list atom :=
  match t with Some v => [Solid (lit " """); Solid v; Solid (lit """")] | None => [] end.
Fixpoint atoms (unsafe : str -> bool) (i : inline) : list atom :=
  let all l := flat_map (atoms unsafe) l in
  match i with
  | IText t => word_atoms unsafe (tokens t)
  | ILineBreak => [Solid (lit "  " ++ [c_nl])]
  | ICode c => [Solid (lit "`"); Solid c; Solid (lit "`")]
  | IHtml h => [Solid h]
  | IEmphasis l => Solid (lit "*") :: all l ++ [Solid (lit "*")]
  | IStrong l => Solid (lit "**") :: all l ++ [Solid (lit "**")]
  | IStrikethrough l => Solid (lit "~~") :: all l ++ [Solid (lit "~~")]
  | ILink l => Solid (lit "[") :: all (link_children l) ++ [Solid (lit "]("); Solid (link_destination l)]
                 ++ title_atoms (link_title l) ++ [Solid (lit ")")]
  | IImage im => [Solid (lit "!["); Solid (image_alt im); Solid (lit "]("); Solid (image_destination im);
                  Solid (match image_title im with Some t => lit " """ ++ t ++ lit """" | None => [] end); Solid (lit ")")]
  | IAutolink u => [Solid (lit "<" ++ u ++ lit ">")]
  | IFootnoteReference l => [Solid (lit "[^" ++ l ++ lit "]")]
  | ILinkReference v =>
      if list_eqb inline_eqb (lr_label v) (lr_text v)
      then Solid (lit "[") :: all (lr_label v) ++ [Solid (lit "]")]
      else Solid (lit "[") :: all (lr_text v) ++ [Solid (lit "][")] ++ all (lr_label v) ++ [Solid (lit "]")]
  | IEmpty => []
  end.
(** the unbreakable segments between the gaps *)
Fixpoint segments (l : list atom) : list (list str) :=
  match l with
  | [] => [[]]
  | Gap :: l' => [] :: segments l'
  | Solid s :: l' => match segments l' with seg :: r => (s :: seg) :: r | [] => [[s]] end
  end.
Section Pack.
Variable uwidth : str -> nat.
Variable width : nat.
Definition segment_columns (seg : list str) : nat := list_sum (map (columns uwidth) seg).
(** the columns of a line of segments, with single blanks between them *)
Definition packed_columns (l : list (list str)) : nat := list_sum (map segment_columns l) + (List.length l - 1).
(** Lines of segments: a line is within the width or is a single segment, and
    the first segment of the next line would not have fitted. *)
Inductive packed : list (list (list str)) -> Prop :=
| packed_last : forall l, packed_columns l <= width /\ l <> [] \/ List.length l = 1 -> packed [l]
| packed_more : forall l seg next ls, packed_columns l <= width /\ l <> [] \/ List.length l = 1 ->
    width < packed_columns l + 1 + segment_columns seg -> packed ((seg :: next) :: ls) -> packed (l :: (seg :: next) :: ls).
Definition packed_text (ls : list (list (list str))) : str :=
  join [c_nl] (map (fun l => join [c_sp] (map (fun seg => concat seg) l)) ls).
End Pack.
