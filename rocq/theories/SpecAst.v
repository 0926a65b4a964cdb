(** Small independent specifications about AST documents: listings of nodes in
    document order.  Nothing here refers to the traversal code being modelled. *)
From Verif Require Export Ast GenericAst.

(** Direct children of an inline node, in document order. *)
Definition inline_children (i : inline) : list inline :=
  match i with
  | IEmphasis c | IStrong c | IStrikethrough c => c
  | ILink l => link_children l
  | ILinkReference l => lr_label l ++ lr_text l
  | _ => []
  end.

(** All inlines below (and including) a node: the node, then its
    descendants, left to right. *)
Fixpoint inline_preorder (i : inline) : list inline :=
  i :: match i with
       | IEmphasis c | IStrong c | IStrikethrough c => flat_map inline_preorder c
       | ILink l => flat_map inline_preorder (link_children l)
       | ILinkReference l =>
           flat_map inline_preorder (lr_label l) ++ flat_map inline_preorder (lr_text l)
       | _ => []
       end.

(** Blocks directly contained in a block. *)
Definition block_children (b : block) : list block :=
  match b with
  | BBlockQuote bs => bs
  | BList l => flat_map li_blocks (l_items l)
  | BFootnoteDefinition f => fd_blocks f
  | BGitHubAlert a => ga_blocks a
  | _ => []
  end.

(** Inlines directly contained in a block. *)
Definition block_inlines (b : block) : list inline :=
  match b with
  | BParagraph c => c
  | BHeading h => h_content h
  | BDefinition d => ld_label d
  | BTable t => concat (concat (t_rows t))
  | _ => []
  end.

(** All blocks below (and including) a block, in document order. *)
Fixpoint block_preorder (b : block) : list block :=
  b :: match b with
       | BBlockQuote bs => flat_map block_preorder bs
       | BList l => flat_map (fun it => flat_map block_preorder (li_blocks it)) (l_items l)
       | BFootnoteDefinition f => flat_map block_preorder (fd_blocks f)
       | BGitHubAlert a => flat_map block_preorder (ga_blocks a)
       | _ => []
       end.

(** All blocks / all inlines of a document, in document order. *)
Definition doc_blocks (d : document) : list block := flat_map block_preorder (d_blocks d).
Definition doc_inlines (d : document) : list inline :=
  flat_map (fun b => flat_map inline_preorder (block_inlines b)) (doc_blocks d).

(** User data of a generic node and its descendants in post-order: children
    left to right, then the node's own datum. *)
Section Data.
  Context {T : Type}.
  Fixpoint data_inline (i : ginline T) : list T :=
    match i with
    | GIText _ d | GILineBreak d | GICode _ d | GIHtml _ d | GIAutolink _ d
    | GIFootnoteReference _ d | GIEmpty d => [d]
    | GILink l => flat_map data_inline (gl_children l) ++ [gl_data l]
    | GILinkReference l =>
        flat_map data_inline (glr_label l) ++ flat_map data_inline (glr_text l) ++ [glr_data l]
    | GIImage im => [gi_data im]
    | GIEmphasis c d | GIStrong c d | GIStrikethrough c d => flat_map data_inline c ++ [d]
    end.
  Fixpoint data_block (b : gblock T) : list T :=
    match b with
    | GBParagraph c d => flat_map data_inline c ++ [d]
    | GBHeading h => flat_map data_inline (gh_content h) ++ [gh_data h]
    | GBThematicBreak d | GBHtmlBlock _ d | GBEmpty d => [d]
    | GBBlockQuote bs d => flat_map data_block bs ++ [d]
    | GBList l =>
        flat_map (fun it => flat_map data_block (gli_blocks it) ++ [gli_data it]) (gll_items l)
        ++ [gll_data l]
    | GBCodeBlock c => [gcb_data c]
    | GBDefinition ld => flat_map data_inline (gld_label ld) ++ [gld_data ld]
    | GBTable t => flat_map (flat_map (flat_map data_inline)) (gt_rows t) ++ [gt_data t]
    | GBFootnoteDefinition f => flat_map data_block (gfd_blocks f) ++ [gfd_data f]
    | GBGitHubAlert a => flat_map data_block (gga_blocks a) ++ [gga_data a]
    end.
  Definition data_document (d : gdocument T) : list T :=
    flat_map data_block (gd_blocks d) ++ [gd_data d].
End Data.

(** Calling a (possibly panicking) stateful closure on each element of a list
    from left to right, collecting the results. *)
Fixpoint call_all {S T U} (f : T -> S -> option (U * S)) (l : list T) (s : S)
  : option (list U * S) :=
  match l with
  | [] => Some ([], s)
  | x :: l' =>
      match f x s with
      | None => None
      | Some (u, s1) =>
          match call_all f l' s1 with
          | None => None
          | Some (us, s2) => Some (u :: us, s2)
          end
      end
  end.
