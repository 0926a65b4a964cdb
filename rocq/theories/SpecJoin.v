(** Specification for C91: rendering documents put together. *)
From Coq Require Import String.
From Verif Require Export MdPrinter.
Import ListNotations.
Open Scope list_scope.

(** what stands between two blocks: an empty line; before a list it can be
    switched off *)
Definition block_separator (config : md_config) (next : list block) : str :=
  match next with
  | BList _ :: _ => if md_empty_line_before_list config then [c_nl; c_nl] else [c_nl]
  | _ => [c_nl; c_nl]
  end.
(** the last element, if there is one, has the property *)
Definition at_last {A} (P : A -> Prop) : list A -> Prop :=
  fix go l := match l with [] => True | [x] => P x | _ :: l' => go l' end.
(** the inlines end in something visible *)
Definition ends_visibly (l : list inline) : Prop :=
  exists l' i, l = l' ++ [i] /\
    match i with
    | IText t => exists t' c, t = t' ++ [c] /\ is_whitespace c = false
    | IEmpty => False
    | _ => True
    end.
(** the printed block ends in something visible: not in an empty block, and not
    in blanks of a text *)
Fixpoint visible_end (b : block) : Prop :=
  match b with
  | BParagraph l => ends_visibly l
  | BEmpty => False
  | BTable t => t_rows t <> []
  | BList l => l_items l <> [] /\ at_last (fun it => at_last visible_end (li_blocks it)) (l_items l)
  | BFootnoteDefinition f => at_last visible_end (fd_blocks f)
  | _ => True
  end.
(** ... as far as it matters: lists *)
Fixpoint tidy (b : block) : Prop :=
  match b with
  | BList l => at_last (fun it => at_last visible_end (li_blocks it)) (l_items l)
  | BFootnoteDefinition f => at_last tidy (fd_blocks f)
  | _ => True
  end.
