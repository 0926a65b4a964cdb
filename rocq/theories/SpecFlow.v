(** Specification for C68, whole documents: the layout of a view.  SpecMd.v gives
    the view of a document (words, blanks that may become line breaks, line
    breaks, quoted parts) and the layouts it has; here is the greedy one. *)
From Coq Require Import String.
From Verif Require Export SpecMd.
Import ListNotations.
Open Scope list_scope.

Section Flow.
Variable uwidth : str -> nat.
Variable page : nat. (* the configured width *)

(** the columns of the words up to the next blank or line break *)
Fixpoint ahead (ps : pieces) : nat :=
  match ps with
  | (_, Word s) :: ps' => columns uwidth s + ahead ps'
  | _ => 0
  end.
(** the column behind the last of some lines that begin at column [col], the
    later ones at column [i]; each line given by its parts *)
Definition line_end (col i : nat) (ls : list (list str)) : nat :=
  let width l := list_sum (map (columns uwidth) l) in
  match ls with
  | [] => col
  | [l] => col + width l
  | _ => i + width (last ls [])
  end.
(** The pieces one after another, [col] being the current column, [width] the
    width to keep to. *)
Definition pieces_out (out : nat -> nat -> nat -> nat -> nat -> piece -> str * nat) (width : nat) :=
  fix go (col : nat) (ps : pieces) : str :=
    match ps with
    | [] => []
    | (i, p) :: ps' =>
        let '(o, col') := out width col i (next_indent None i ps') (ahead ps') p in o ++ go col' ps'
    end.
(** One piece, of indentation [i]; [next] is the indentation of the next line if
    the line is broken, [next_columns] the columns the following words need. *)
Fixpoint piece_out (width col i next next_columns : nat) (p : piece) : str * nat :=
  match p with
  | Word s => (s, col + columns uwidth s)
  | Soft =>
      (* a blank if the next words still fit, a line break if not *)
      if width <? col + 1 + next_columns then (break_to next, next) else ([c_sp], col + 1)
  | Newline => (break_to next, next)
  | Quoted inner =>
      (* laid out in the configured width, less the column of the quote and
         the two columns of "> " *)
      let ls := lines (pieces_out piece_out (page - col - 2) 0 inner) in
      (join (break_to i) (map (fun l => lit "> " ++ l) ls),
       line_end col i (map (fun l => [lit "> "; l]) ls))
  | Alerted inner =>
      (* always laid out in 80 columns *)
      let ls := map alert_text (lines (pieces_out piece_out 80 0 inner)) in
      (flat_map (fun l => break_to i ++ l) ls, line_end col i ([] :: map (fun l => [l]) ls))
  end.
Definition layout (ps : pieces) : str := pieces_out piece_out page 0 ps.
End Flow.
