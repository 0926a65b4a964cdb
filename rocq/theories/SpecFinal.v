(** What a source ends in, and where "<" begins a line (specification for C82). *)
From Coq Require Import String.
From Verif Require Export Chars.
Import ListNotations.
Open Scope list_scope.

Definition ends_in (c : char) (s : str) : Prop := exists u, s = u ++ [c].
(** no line of [s] begins, perhaps after spaces, with "<" in front of a letter,
    "/", "!" or "?" *)
Definition no_html (s : str) : Prop :=
  forall u k c v, s = u ++ repeat 32%N k ++ ch "<" :: c :: v -> u = [] \/ ends_in 10%N u ->
    ~ (is_alpha c = true \/ In c (lit "/!?")).
