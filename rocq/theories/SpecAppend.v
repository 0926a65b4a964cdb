(** Sources put one after the other (specification for C85). *)
From Coq Require Import String.
From Verif Require Export SpecBlock SpecFinal.
Import ListNotations.
Open Scope list_scope.

(** some line of [s] begins with [p], perhaps after spaces *)
Definition line_begins (p s : str) : Prop :=
  exists u k v, s = u ++ repeat 32%N k ++ p ++ v /\ (u = [] \/ ends_in 10%N u).
Definition fence_line (s : str) : Prop := line_begins (lit "```") s \/ line_begins (lit "~~~") s.
(** the first line that is not blank begins with a space *)
Definition indented (s : str) : Prop := exists bl m, repeated blank_line s bl m /\ begins_with c_sp m.
(** lines read as text: a paragraph or a setext heading *)
Definition text_shape (h : shape) : Prop :=
  match h with HText _ | HLine _ | HHeading (Setext _) _ => True | _ => False end.
(** The source read block by block, as in C70: no line that opens a code block
    ends up as text, that is, every fence that is opened is closed. *)
Inductive fences_closed (cfg : config) : str -> Prop :=
| closed_end : forall s, blank s -> fences_closed cfg s
| closed_block : forall c s bl m h r o, repeated blank_line s bl m -> first_of (block_rules cfg) m h r -> makes_all cfg h o ->
    s = c ++ r -> (text_shape h -> ~ fence_line c) -> fences_closed cfg r -> fences_closed cfg s.
(** no quotation mark, parenthesis or backslash before the next empty line *)
Definition untitled (z : str) : Prop :=
  exists p q, z = p ++ q /\ (q = [] \/ exists y, q = 10%N :: 10%N :: y) /\ forall c, In c (34%N :: lit "'(\") -> ~ In c p.
(** [w] and [z] are the text in brackets and what follows in "[^a]: text" *)
Definition footnote_text (w z : str) : Prop :=
  exists l k c y, w = ch "^" :: l /\ l <> [] /\ z = ch ":" :: repeat 32%N k ++ c :: y /\ ~ In c [32%N; 10%N; 13%N].
(** Every "[" at the beginning of a line, perhaps after spaces, is closed: the
    first "]" behind it is not escaped; and if it stands in front of ":", nothing
    that could be a title follows, or (where footnotes are read) it is a footnote. *)
Definition labels_closed (footnotes : Prop) (s : str) : Prop :=
  forall u k v, s = u ++ repeat 32%N k ++ ch "[" :: v -> u = [] \/ ends_in 10%N u ->
    exists w z, v = w ++ ch "]" :: z /\ ~ In (ch "]") w /\ ~ ends_in (ch "\") w /\ (begins_with (ch ":") z -> untitled z \/ footnotes /\ footnote_text w z).
(** A source that leaves nothing open: no line begins with a code fence, none
    with a tag where HTML blocks are read, and definitions, where they are read,
    are complete and have no title. *)
Definition self_contained (cfg : config) (a : str) : Prop :=
  ~ ends_in 13%N a /\ ~ fence_line a /\
  (b_html_block cfg <> Ignore -> no_html a) /\
  (b_link_definition cfg <> Ignore \/ b_footnote_definition cfg <> Ignore -> labels_closed (b_footnote_definition cfg <> Ignore) a /\ ~ ends_in (ch "\") a).
