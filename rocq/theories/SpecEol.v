(** Specification for C80: line endings. *)
From Coq Require Import String.
From Verif Require Export Ast ParserConfig.
Import ListNotations.
Open Scope list_scope.

(** every CR LF replaced by LF *)
Fixpoint unix (s : str) : str :=
  match s with
  | [] => []
  | c :: s' =>
      match s' with
      | d :: _ => if (N.eqb c 13 && N.eqb d 10)%bool then unix s' else c :: unix s'
      | [] => [c]
      end
  end.
(** no carriage return but in CR LF *)
Definition no_lone_cr (s : str) : Prop := ~ In 13%N (unix s).
(** "<" occurs in front of a letter, "/", "!" or "?": the beginning of every HTML block *)
Definition opens_tag (s : str) : Prop :=
  exists a c b, s = a ++ ch "<" :: c :: b /\ (is_alpha c = true \/ In c (lit "/!?")).
(** "]:" occurs *)
Definition has_colon_after_bracket (s : str) : Prop := exists a b, s = a ++ lit "]:" ++ b.
