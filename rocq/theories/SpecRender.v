(** Specification for C55: the two ways in which the Markdown printer can fail
    on a parsed document. *)
From Coq Require Import String.
From Verif Require Import SpecAst SpecMd.
Import ListNotations.
Open Scope list_scope.

Section Narrow.
Variable uwidth : str -> nat.
Variable config : md_config.
(** [narrow col ind b]: in [b], printed from column [col] with its later lines
    indented by [ind], some quote starts with fewer than two columns left. *)
Inductive narrow : nat -> nat -> block -> Prop :=
| narrow_here : forall col ind bs, md_width config < col + 2 -> narrow col ind (BBlockQuote bs)
| narrow_in_quote : forall col ind bs, narrow_blocks 0 0 bs -> narrow col ind (BBlockQuote bs)
| narrow_in_alert : forall col ind t bs, narrow_blocks 0 0 bs -> narrow col ind (BGitHubAlert (GitHubAlert t bs))
| narrow_in_item : forall col ind kind items k task bs,
    nth_error items k = Some (ListItem task bs) ->
    narrow_blocks
      ((if k =? 0 then col else ind) + md_spaces_before_list_item config
        + List.length (marker kind k) + 1 + task_width task)
      (ind + content_indent config kind (List.length items)) bs ->
    narrow col ind (BList (MkList kind items))
| narrow_in_footnote : forall col ind label bs,
    narrow_blocks (col + columns uwidth (lit "[^" ++ label ++ lit "]: ")) ind bs ->
    narrow col ind (BFootnoteDefinition (FootnoteDefinition label bs))
with narrow_blocks : nat -> nat -> list block -> Prop :=
| narrow_first : forall col ind b l, narrow col ind b -> narrow_blocks col ind (b :: l)
| narrow_later : forall col ind b l c, In c l -> narrow ind ind c -> narrow_blocks col ind (b :: l).
Definition document_narrow (d : document) : Prop := narrow_blocks 0 0 (d_blocks d).
End Narrow.

(** an ordered list that counts beyond 2^64 - 1 *)
Definition counts_too_far (b : block) : Prop :=
  match b with
  | BList (MkList (Ordered start) items) => (u64_max < start + N.of_nat (List.length items))%N
  | _ => False
  end.
(** no quote below a list or a footnote definition *)
Definition quotes_outside_lists (d : document) : Prop :=
  forall b q, In b (doc_blocks d) -> In (BBlockQuote q) (block_preorder b) ->
    match b with BList _ | BFootnoteDefinition _ => False | _ => True end.
