(** The commands of a LaTeX text (specification for C94). *)
From Coq Require Import String.
From Verif Require Export SpecLatex.
Import ListNotations.
Open Scope list_scope.

(** As TeX reads it: a backslash is followed by a name of letters, as long as
    possible, or by one other character.  Two circumflexes in a row (TeX's
    notation for arbitrary characters) are reported as a command, too. *)
Inductive state := Plain | Backslash | Name (n : str).
Definition circumflex (c : char) (last : bool) : list str := if N.eqb c (ch "^") && last then [lit "^^"] else [].
Definition read (st : state) (c : char) : state * list str :=
  match st with
  | Plain => if N.eqb c (ch "\") then (Backslash, []) else (Plain, [])
  | Backslash => if is_alpha c then (Name [c], []) else (Plain, [[c]])
  | Name n => if is_alpha c then (Name (n ++ [c]), []) else if N.eqb c (ch "\") then (Backslash, [n]) else (Plain, [n])
  end.
Fixpoint scan (st : state) (last : bool) (s : str) : state * bool * list str :=
  match s with
  | [] => (st, last, [])
  | c :: s' =>
      let '(st1, x) := read st c in
      let '(r, y) := scan st1 (N.eqb c (ch "^")) s' in
      (r, circumflex c last ++ x ++ y)
  end.
(** all commands of a text; a backslash at the end is the empty command *)
Definition commands (s : str) : list str :=
  let '(st, _, x) := scan Plain false s in
  x ++ match st with Plain => [] | Backslash => [[]] | Name n => [n] end.

(** formatting, and the ten special characters as text *)
Definition formatting : list str := map lit
  ["\"; "{"; "}"; "$"; "&"; "%"; "#"; "_"; "textbackslash"; "textasciicircum"; "textasciitilde";
   "texttt"; "textit"; "textbf"; "sout"; "url"; "href"; "footnote"; "footnotemark"; "footnotetext";
   "includegraphics"; "caption"; "section"; "subsection"; "subsubsection"; "paragraph"; "subparagraph";
   "begin"; "end"; "hrule"; "item"; "boxtimes"; "square";
   "hline"; "toprule"; "midrule"; "bottomrule"; "textwidth"]%string.
