(** How deeply a document is nested (specification for C106). *)
From Verif Require Export SpecParser.
Import ListNotations.
Open Scope list_scope.

Definition deepest (l : list nat) : nat := fold_right Nat.max 0 l.
(** one more than the deepest of its children *)
Fixpoint inline_depth (i : inline) : nat :=
  let depths l := deepest (map inline_depth l) in
  1 + match i with
      | ILink l => depths (link_children l)
      | ILinkReference l => Nat.max (depths (lr_label l)) (depths (lr_text l))
      | IEmphasis c | IStrong c | IStrikethrough c => depths c
      | _ => 0
      end.
Definition inlines_depth (l : list inline) : nat := deepest (map inline_depth l).
Fixpoint block_depth (b : block) : nat :=
  let depths l := deepest (map block_depth l) in
  1 + match b with
      | BBlockQuote bs => depths bs
      | BList l => deepest (map (fun it => depths (li_blocks it)) (l_items l))
      | BFootnoteDefinition f => depths (fd_blocks f)
      | BGitHubAlert a => depths (ga_blocks a)
      | _ => inlines_depth (block_inlines b)
      end.
Definition blocks_depth (l : list block) : nat := deepest (map block_depth l).
Definition doc_depth (d : document) : nat := blocks_depth (d_blocks d).
