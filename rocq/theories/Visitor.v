(** /repo/src/ast_transform/visitor.rs.  A [Visitor] is a state ([self]) and
    thirteen overridable [visit_*] methods.  Each method is modelled as a hook
    receiving the node and the default continuation [walk_*] of that node (as
    a state transformer); the trait's default method just runs it.
    Simplification: an overriding method may run the default walk of the node
    it was given any number of times (including zero), but not walks of
    other nodes it makes up. *)
From Verif Require Export Ast.

Record visitor (S : Type) := Visitor {
  v_document : document -> (S -> S) -> S -> S;
  v_block : block -> (S -> S) -> S -> S;
  v_inline : inline -> (S -> S) -> S -> S;
  v_table_cell : table_cell -> (S -> S) -> S -> S;
  v_list_item : list_item -> (S -> S) -> S -> S;
  v_table_row : table_row -> (S -> S) -> S -> S;
  v_heading : heading -> (S -> S) -> S -> S;
  v_link : link -> (S -> S) -> S -> S;
  v_image : image -> (S -> S) -> S -> S;
  v_code_block : code_block -> (S -> S) -> S -> S;
  v_text : str -> (S -> S) -> S -> S;
  v_footnote_definition : footnote_definition -> (S -> S) -> S -> S;
  v_github_alert : github_alert -> (S -> S) -> S -> S }.
Arguments Visitor {S}.
Arguments v_document {S}. Arguments v_block {S}. Arguments v_inline {S}.
Arguments v_table_cell {S}. Arguments v_list_item {S}. Arguments v_table_row {S}.
Arguments v_heading {S}. Arguments v_link {S}. Arguments v_image {S}.
Arguments v_code_block {S}. Arguments v_text {S}. Arguments v_footnote_definition {S}.
Arguments v_github_alert {S}.

(** A [for x in l { self.f(x) }] loop. *)
Definition each {A S : Type} (f : A -> S -> S) (l : list A) (s : S) : S :=
  fold_left (fun s x => f x s) l s.

(** visitor.rs:64-127: the trait's default methods. *)
Definition default_visitor (S : Type) : visitor S :=
  Visitor (fun _ w => w) (fun _ w => w) (fun _ w => w) (fun _ w => w) (fun _ w => w)
          (fun _ w => w) (fun _ w => w) (fun _ w => w) (fun _ w => w) (fun _ w => w)
          (fun _ w => w) (fun _ w => w) (fun _ w => w).

Section Visit.
Context {S : Type} (v : visitor S).

(** visitor.rs:181-216 [walk_inline]; 246-251 [walk_link]; 253-266 terminal walks *)
Fixpoint visit_inline (i : inline) : S -> S :=
  v_inline v i
    (match i with
     | IEmphasis c | IStrong c | IStrikethrough c => each visit_inline c
     | ILink l => v_link v l (each visit_inline (link_children l))
     | ILinkReference l => fun s => each visit_inline (lr_text l) (each visit_inline (lr_label l) s)
     | IImage im => v_image v im (fun s => s)
     | IText t => v_text v t (fun s => s)
     | ILineBreak | ICode _ | IHtml _ | IAutolink _ | IFootnoteReference _ | IEmpty => fun s => s
     end).

(** visitor.rs:218-223 [walk_table_cell], 232-237 [walk_table_row], 239-244 [walk_heading] *)
Definition visit_table_cell (c : table_cell) : S -> S := v_table_cell v c (each visit_inline c).
Definition visit_table_row (r : table_row) : S -> S := v_table_row v r (each visit_table_cell r).
Definition visit_heading (h : heading) : S -> S := v_heading v h (each visit_inline (h_content h)).

(** visitor.rs:136-179 [walk_block]; 225-230 [walk_list_item];
    268-273 [walk_footnote_definition]; 275-280 [walk_github_alert] *)
Fixpoint visit_block (b : block) : S -> S :=
  v_block v b
    (match b with
     | BParagraph c => each visit_inline c
     | BHeading h => visit_heading h
     | BBlockQuote bs => each visit_block bs
     | BList l => each (fun it => v_list_item v it (each visit_block (li_blocks it))) (l_items l)
     | BTable t => each visit_table_row (t_rows t)
     | BFootnoteDefinition f => v_footnote_definition v f (each visit_block (fd_blocks f))
     | BGitHubAlert a => v_github_alert v a (each visit_block (ga_blocks a))
     | BDefinition d => each visit_inline (ld_label d)
     | BCodeBlock c => v_code_block v c (fun s => s)
     | BThematicBreak | BHtmlBlock _ | BEmpty => fun s => s
     end).

(** visitor.rs:129-134 [walk_document]; 288-292 [visit_with] *)
Definition visit_document (d : document) : S -> S := v_document v d (each visit_block (d_blocks d)).
End Visit.
