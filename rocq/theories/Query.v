(** /repo/src/ast_transform/query.rs.  The result vector passed by [&mut] is
    threaded as an accumulator, in push order. *)
From Verif Require Export Ast.

(** [for x in l { if let Some(y) = f(x) { return Some(y) } } None] *)
Section FindMap.
  Context {A B : Type} (f : A -> option B).
  Fixpoint find_map (l : list A) : option B :=
    match l with
    | [] => None
    | x :: l' => match f x with Some y => Some y | None => find_map l' end
    end.
End FindMap.

Section Query.
Variable predicate : inline -> bool.

(** query.rs:367-399 [collect_inlines_from_inline] *)
Fixpoint collect_inlines_from_inline (i : inline) (results : list inline) : list inline :=
  let results := if predicate i then results ++ [i] else results in
  let go := fold_left (fun acc x => collect_inlines_from_inline x acc) in
  match i with
  | IEmphasis c | IStrong c | IStrikethrough c => go c results
  | ILink l => go (link_children l) results
  | ILinkReference l => go (lr_text l) (go (lr_label l) results)
  | _ => results
  end.

Definition collect_inlines (l : list inline) (results : list inline) : list inline :=
  fold_left (fun acc x => collect_inlines_from_inline x acc) l results.

(** query.rs:312-365 [collect_inlines_from_block] *)
Fixpoint collect_inlines_from_block (b : block) (results : list inline) : list inline :=
  let go := fold_left (fun acc x => collect_inlines_from_block x acc) in
  match b with
  | BParagraph c => collect_inlines c results
  | BHeading h => collect_inlines (h_content h) results
  | BBlockQuote bs => go bs results
  | BList l => fold_left (fun acc it => go (li_blocks it) acc) (l_items l) results
  | BTable t => fold_left (fun acc row =>
                  fold_left (fun acc cell => collect_inlines cell acc) row acc)
                  (t_rows t) results
  | BFootnoteDefinition f => go (fd_blocks f) results
  | BGitHubAlert a => go (ga_blocks a) results
  | BDefinition d => collect_inlines (ld_label d) results
  | _ => results
  end.

(** query.rs:508-546 [find_first_inline_in_inline]; the [for] loops with early
    return are [find_map]s *)
Fixpoint find_first_inline_in_inline (i : inline) : option inline :=
  if predicate i then Some i else
  match i with
  | IEmphasis c | IStrong c | IStrikethrough c => find_map find_first_inline_in_inline c
  | ILink l => find_map find_first_inline_in_inline (link_children l)
  | ILinkReference l =>
      match find_map find_first_inline_in_inline (lr_label l) with
      | Some found => Some found
      | None => find_map find_first_inline_in_inline (lr_text l)
      end
  | _ => None
  end.

(** query.rs:436-506 [find_first_inline_in_block] *)
Fixpoint find_first_inline_in_block (b : block) : option inline :=
  match b with
  | BParagraph c => find_map find_first_inline_in_inline c
  | BHeading h => find_map find_first_inline_in_inline (h_content h)
  | BBlockQuote bs => find_map find_first_inline_in_block bs
  | BList l => find_map (fun it => find_map find_first_inline_in_block (li_blocks it)) (l_items l)
  | BTable t => find_map (fun row => find_map (fun cell =>
                  find_map find_first_inline_in_inline cell) row) (t_rows t)
  | BFootnoteDefinition f => find_map find_first_inline_in_block (fd_blocks f)
  | BGitHubAlert a => find_map find_first_inline_in_block (ga_blocks a)
  | BDefinition d => find_map find_first_inline_in_inline (ld_label d)
  | _ => None
  end.

(** query.rs:190-199, 212-222 (impl for Document), 238-261 (Block), 272-300 (Vec<Inline>) *)
Definition find_all_inlines_doc (d : document) : list inline :=
  fold_left (fun acc b => acc ++ collect_inlines_from_block b []) (d_blocks d) [].
Definition find_all_inlines_block (b : block) : list inline := collect_inlines_from_block b [].
Definition find_all_inlines_vec (l : list inline) : list inline := collect_inlines l [].
Definition find_first_inline_doc (d : document) : option inline :=
  find_map find_first_inline_in_block (d_blocks d).
Definition find_first_inline_vec (l : list inline) : option inline :=
  find_map find_first_inline_in_inline l.
(** query.rs:58-64, 74-80 *)
Definition count_inlines_doc (d : document) : nat := length (find_all_inlines_doc d).
Definition any_inline_doc (d : document) : bool :=
  match find_first_inline_doc d with Some _ => true | None => false end.
End Query.

Section QueryBlock.
Variable predicate : block -> bool.

(** query.rs:401-434 [collect_blocks_from_block] *)
Fixpoint collect_blocks_from_block (b : block) (results : list block) : list block :=
  let results := if predicate b then results ++ [b] else results in
  let go := fold_left (fun acc x => collect_blocks_from_block x acc) in
  match b with
  | BBlockQuote bs => go bs results
  | BList l => fold_left (fun acc it => go (li_blocks it) acc) (l_items l) results
  | BFootnoteDefinition f => go (fd_blocks f) results
  | BGitHubAlert a => go (ga_blocks a) results
  | _ => results
  end.

(** query.rs:548-590 [find_first_block_in_block] *)
Fixpoint find_first_block_in_block (b : block) : option block :=
  if predicate b then Some b else
  match b with
  | BBlockQuote bs => find_map find_first_block_in_block bs
  | BList l => find_map (fun it => find_map find_first_block_in_block (li_blocks it)) (l_items l)
  | BFootnoteDefinition f => find_map find_first_block_in_block (fd_blocks f)
  | BGitHubAlert a => find_map find_first_block_in_block (ga_blocks a)
  | _ => None
  end.

(** query.rs:201-210, 224-234 (Document), 247-269 (Block) *)
Definition find_all_blocks_doc (d : document) : list block :=
  fold_left (fun acc b => acc ++ collect_blocks_from_block b []) (d_blocks d) [].
Definition find_all_blocks_block (b : block) : list block := collect_blocks_from_block b [].
Definition find_first_block_doc (d : document) : option block :=
  find_map find_first_block_in_block (d_blocks d).
(** query.rs:66-72, 82-88 *)
Definition count_blocks_doc (d : document) : nat := length (find_all_blocks_doc d).
Definition any_block_doc (d : document) : bool :=
  match find_first_block_doc d with Some _ => true | None => false end.
End QueryBlock.

(** [Iterator::filter_map] *)
Fixpoint filter_some {A B} (f : A -> option B) (l : list A) : list B :=
  match l with
  | [] => []
  | x :: l' => match f x with Some y => y :: filter_some f l' | None => filter_some f l' end
  end.

(** query.rs:90-187 typed finders (for Document) *)
Definition find_all_links (d : document) : list link :=
  filter_some (fun i => match i with ILink l => Some l | _ => None end)
    (find_all_inlines_doc (fun i => match i with ILink _ => true | _ => false end) d).
Definition find_all_images (d : document) : list image :=
  filter_some (fun i => match i with IImage l => Some l | _ => None end)
    (find_all_inlines_doc (fun i => match i with IImage _ => true | _ => false end) d).
Definition find_all_headings (d : document) : list heading :=
  filter_some (fun i => match i with BHeading l => Some l | _ => None end)
    (find_all_blocks_doc (fun i => match i with BHeading _ => true | _ => false end) d).
Definition find_all_autolinks (d : document) : list str :=
  filter_some (fun i => match i with IAutolink l => Some l | _ => None end)
    (find_all_inlines_doc (fun i => match i with IAutolink _ => true | _ => false end) d).
Definition find_all_text (d : document) : list str :=
  filter_some (fun i => match i with IText l => Some l | _ => None end)
    (find_all_inlines_doc (fun i => match i with IText _ => true | _ => false end) d).
Definition find_all_code_spans (d : document) : list str :=
  filter_some (fun i => match i with ICode l => Some l | _ => None end)
    (find_all_inlines_doc (fun i => match i with ICode _ => true | _ => false end) d).
Definition find_all_code_blocks (d : document) : list code_block :=
  filter_some (fun i => match i with BCodeBlock l => Some l | _ => None end)
    (find_all_blocks_doc (fun i => match i with BCodeBlock _ => true | _ => false end) d).
Definition find_all_tables (d : document) : list table :=
  filter_some (fun i => match i with BTable l => Some l | _ => None end)
    (find_all_blocks_doc (fun i => match i with BTable _ => true | _ => false end) d).
Definition find_all_lists (d : document) : list mdlist :=
  filter_some (fun i => match i with BList l => Some l | _ => None end)
    (find_all_blocks_doc (fun i => match i with BList _ => true | _ => false end) d).
