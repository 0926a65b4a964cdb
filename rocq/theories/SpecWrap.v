(** Specification for C96: prose as authors write it. *)
From Verif Require Export SpecRound.

(** a line break in a text is followed by a word that begins no block *)
Definition breaks_freely (l : list inline) : Prop :=
  forall t, In (IText t) (flat_map inline_preorder l) ->
  forall a b w x, t = a ++ c_nl :: b -> tokens b = Some w :: x -> opens_line w.
(** a paragraph: rich text, no blank at its ends, that begins and goes on with
    words that begin no block *)
Definition prose (l : list inline) : Prop := rich l /\ opens_paragraph l /\ tight (source l) /\ breaks_freely l.
