(** /repo/src/ast_transform/transformer.rs, convenience.rs and pipeline.rs.

    A [Transformer] is a state ([&mut self]) plus overridable methods.  As in
    Visitor.v every overridable method is a hook receiving the node and the
    default continuation of that node.  [transform_inline] hooks also get
    [kids]: the node's own children mapped through [self.transform_inline]
    (used by [LinkUrlTransformer]).  Simplification: an overriding method may
    use only these continuations, not transform nodes it makes up. *)
From Verif Require Export Ast Query.

(** State monad: [&mut self] threaded explicitly. *)
Definition M (S A : Type) := S -> A * S.
Definition ret {S A} (a : A) : M S A := fun s => (a, s).
Definition bind {S A B} (m : M S A) (f : A -> M S B) : M S B :=
  fun s => let '(a, s') := m s in f a s'.
Notation "x <- m ;; k" := (bind m (fun x => k))
  (at level 61, m at next level, right associativity).

Section MapM.
  Context {S A B : Type} (f : A -> M S B).
  (** [into_iter().map(f).collect()] *)
  Fixpoint mapM (l : list A) : M S (list B) :=
    match l with
    | [] => ret []
    | x :: l' => y <- f x ;; ys <- mapM l' ;; ret (y :: ys)
    end.
End MapM.
Section FlatMapM.
  Context {S A B : Type} (f : A -> M S (list B)).
  (** [into_iter().flat_map(f).collect()] *)
  Fixpoint flat_mapM (l : list A) : M S (list B) :=
    match l with
    | [] => ret []
    | x :: l' => y <- f x ;; ys <- flat_mapM l' ;; ret (y ++ ys)
    end.
End FlatMapM.

(** The expansion methods that no code reachable from [expand_with] calls
    (transformer.rs:295-297, 318-320, 329-375): they run only when called directly. *)
Record expanders (S : Type) := Expanders {
  ex_document : document -> M S (list document) -> M S (list document);
  ex_inline : inline -> M S (list inline) -> M S (list inline);
  ex_list_item : list_item -> M S (list list_item) -> M S (list list_item);
  ex_table_row : table_row -> M S (list table_row) -> M S (list table_row);
  ex_heading : heading -> M S (list heading) -> M S (list heading);
  ex_link : link -> M S (list link) -> M S (list link);
  ex_image : image -> M S (list image) -> M S (list image);
  ex_code_block : code_block -> M S (list code_block) -> M S (list code_block);
  ex_text : str -> M S (list str) -> M S (list str);
  ex_footnote_definition : footnote_definition -> M S (list footnote_definition) -> M S (list footnote_definition);
  ex_github_alert : github_alert -> M S (list github_alert) -> M S (list github_alert) }.
Arguments Expanders {S}. Arguments ex_document {S}. Arguments ex_inline {S}. Arguments ex_list_item {S}.
Arguments ex_table_row {S}. Arguments ex_heading {S}. Arguments ex_link {S}. Arguments ex_image {S}.
Arguments ex_code_block {S}. Arguments ex_text {S}. Arguments ex_footnote_definition {S}. Arguments ex_github_alert {S}.
Definition default_expanders (S : Type) : expanders S :=
  Expanders (fun _ w => w) (fun _ w => w) (fun _ w => w) (fun _ w => w) (fun _ w => w) (fun _ w => w)
    (fun _ w => w) (fun _ w => w) (fun _ w => w) (fun _ w => w) (fun _ w => w).

Record transformer (S : Type) := Transformer {
  tr_document : document -> M S document -> M S document;
  tr_block : block -> M S block -> M S block;
  tr_inline : inline -> M S inline -> M S (list inline) -> M S inline;
  tr_table_cell : table_cell -> M S table_cell -> M S table_cell;
  tr_list_item : list_item -> M S list_item -> M S list_item;
  tr_table_row : table_row -> M S table_row -> M S table_row;
  tr_heading : heading -> M S heading -> M S heading;
  tr_link : link -> M S link -> M S link;
  tr_image : image -> M S image -> M S image;
  tr_code_block : code_block -> M S code_block -> M S code_block;
  tr_text : str -> M S str -> M S str;
  tr_footnote_definition : footnote_definition -> M S footnote_definition -> M S footnote_definition;
  tr_github_alert : github_alert -> M S github_alert -> M S github_alert;
  (* the expansion methods reachable from [expand_with] *)
  tr_expand_block : block -> M S (list block) -> M S (list block);
  tr_expand_table_cell : table_cell -> M S (list table_cell) -> M S (list table_cell);
  tr_walk_expand_block : block -> M S (list block) -> M S (list block);
  tr_walk_expand_inline : inline -> M S (list inline) -> M S (list inline);
  tr_expanders : expanders S }.
Arguments Transformer {S}.
Arguments tr_document {S}. Arguments tr_block {S}. Arguments tr_inline {S}.
Arguments tr_table_cell {S}. Arguments tr_list_item {S}. Arguments tr_table_row {S}.
Arguments tr_heading {S}. Arguments tr_link {S}. Arguments tr_image {S}.
Arguments tr_code_block {S}. Arguments tr_text {S}. Arguments tr_footnote_definition {S}.
Arguments tr_github_alert {S}. Arguments tr_expand_block {S}. Arguments tr_expand_table_cell {S}.
Arguments tr_walk_expand_block {S}. Arguments tr_walk_expand_inline {S}. Arguments tr_expanders {S}.

(** transformer.rs:57-123, 295-375: the trait's default methods. *)
Definition default_transformer (S : Type) : transformer S :=
  Transformer (fun _ w => w) (fun _ w => w) (fun _ w _ => w) (fun _ w => w) (fun _ w => w)
    (fun _ w => w) (fun _ w => w) (fun _ w => w) (fun _ w => w) (fun _ w => w) (fun _ w => w)
    (fun _ w => w) (fun _ w => w) (fun _ w => w) (fun _ w => w) (fun _ w => w) (fun _ w => w) (default_expanders S).

(** Overriding just [transform_inline] / [transform_block] / the two
    expansion walks. *)
Definition with_inline {S} (f : inline -> M S inline -> M S (list inline) -> M S inline)
  (t : transformer S) : transformer S :=
  Transformer (tr_document t) (tr_block t) f (tr_table_cell t) (tr_list_item t) (tr_table_row t)
    (tr_heading t) (tr_link t) (tr_image t) (tr_code_block t) (tr_text t)
    (tr_footnote_definition t) (tr_github_alert t) (tr_expand_block t) (tr_expand_table_cell t)
    (tr_walk_expand_block t) (tr_walk_expand_inline t) (tr_expanders t).
Definition with_block {S} (f : block -> M S block -> M S block)
  (t : transformer S) : transformer S :=
  Transformer (tr_document t) f (tr_inline t) (tr_table_cell t) (tr_list_item t) (tr_table_row t)
    (tr_heading t) (tr_link t) (tr_image t) (tr_code_block t) (tr_text t)
    (tr_footnote_definition t) (tr_github_alert t) (tr_expand_block t) (tr_expand_table_cell t)
    (tr_walk_expand_block t) (tr_walk_expand_inline t) (tr_expanders t).
Definition with_document {S} (f : document -> M S document -> M S document)
  (t : transformer S) : transformer S :=
  Transformer f (tr_block t) (tr_inline t) (tr_table_cell t) (tr_list_item t) (tr_table_row t)
    (tr_heading t) (tr_link t) (tr_image t) (tr_code_block t) (tr_text t)
    (tr_footnote_definition t) (tr_github_alert t) (tr_expand_block t) (tr_expand_table_cell t)
    (tr_walk_expand_block t) (tr_walk_expand_inline t) (tr_expanders t).
Definition with_walk_expand_inline {S} (f : inline -> M S (list inline) -> M S (list inline))
  (t : transformer S) : transformer S :=
  Transformer (tr_document t) (tr_block t) (tr_inline t) (tr_table_cell t) (tr_list_item t)
    (tr_table_row t) (tr_heading t) (tr_link t) (tr_image t) (tr_code_block t) (tr_text t)
    (tr_footnote_definition t) (tr_github_alert t) (tr_expand_block t) (tr_expand_table_cell t)
    (tr_walk_expand_block t) f (tr_expanders t).
Definition with_walk_expand_block {S} (f : block -> M S (list block) -> M S (list block))
  (t : transformer S) : transformer S :=
  Transformer (tr_document t) (tr_block t) (tr_inline t) (tr_table_cell t) (tr_list_item t)
    (tr_table_row t) (tr_heading t) (tr_link t) (tr_image t) (tr_code_block t) (tr_text t)
    (tr_footnote_definition t) (tr_github_alert t) (tr_expand_block t) (tr_expand_table_cell t)
    f (tr_walk_expand_inline t) (tr_expanders t).

Definition with_expanders {S} (e : expanders S) (t : transformer S) : transformer S :=
  Transformer (tr_document t) (tr_block t) (tr_inline t) (tr_table_cell t) (tr_list_item t)
    (tr_table_row t) (tr_heading t) (tr_link t) (tr_image t) (tr_code_block t) (tr_text t)
    (tr_footnote_definition t) (tr_github_alert t) (tr_expand_block t) (tr_expand_table_cell t)
    (tr_walk_expand_block t) (tr_walk_expand_inline t) e.

Section Transform.
Context {S : Type} (t : transformer S).

(** transformer.rs:67-69, 185-225 [walk_transform_inline], 261-269
    [walk_transform_link], 271-286 terminal walks *)
Fixpoint transform_inline (i : inline) : M S inline :=
  let maps := mapM transform_inline in
  tr_inline t i
    (match i with
     | IEmphasis c => c' <- maps c ;; ret (IEmphasis c')
     | IStrong c => c' <- maps c ;; ret (IStrong c')
     | IStrikethrough c => c' <- maps c ;; ret (IStrikethrough c')
     | ILink l =>
         l' <- tr_link t l
                 (c' <- maps (link_children l) ;;
                  ret (Link (link_destination l) (link_title l) c')) ;;
         ret (ILink l')
     | ILinkReference l =>
         lb <- maps (lr_label l) ;; tx <- maps (lr_text l) ;;
         ret (ILinkReference (LinkReference lb tx))
     | IImage im => im' <- tr_image t im (ret im) ;; ret (IImage im')
     | IText s => s' <- tr_text t s (ret s) ;; ret (IText s')
     | other => ret other
     end)
    (match i with
     | IEmphasis c | IStrong c | IStrikethrough c => maps c
     | ILink l => maps (link_children l)
     | ILinkReference l => lb <- maps (lr_label l) ;; tx <- maps (lr_text l) ;; ret (lb ++ tx)
     | _ => ret []
     end).

(** transformer.rs:227-232 [walk_transform_table_cell], 244-249
    [walk_transform_table_row], 251-259 [walk_transform_heading] *)
Definition transform_table_cell (c : table_cell) : M S table_cell :=
  tr_table_cell t c (mapM transform_inline c).
Definition transform_table_row (r : table_row) : M S table_row :=
  tr_table_row t r (mapM transform_table_cell r).
Definition transform_heading (h : heading) : M S heading :=
  tr_heading t h (c <- mapM transform_inline (h_content h) ;; ret (Heading (h_kind h) c)).

(** transformer.rs:62-64, 135-183 [walk_transform_block], 234-242
    [walk_transform_list_item], 565-586 footnote / alert walks *)
Fixpoint transform_block (b : block) : M S block :=
  let mapb := mapM transform_block in
  tr_block t b
    (match b with
     | BParagraph c => c' <- mapM transform_inline c ;; ret (BParagraph c')
     | BHeading h => h' <- transform_heading h ;; ret (BHeading h')
     | BBlockQuote bs => bs' <- mapb bs ;; ret (BBlockQuote bs')
     | BList l =>
         items <- mapM (fun it => tr_list_item t it
                          (bs <- mapb (li_blocks it) ;; ret (ListItem (li_task it) bs)))
                    (l_items l) ;;
         ret (BList (MkList (l_kind l) items))
     | BTable tb =>
         rows <- mapM transform_table_row (t_rows tb) ;;
         ret (BTable (Table rows (t_alignments tb)))
     | BFootnoteDefinition f =>
         f' <- tr_footnote_definition t f
                 (bs <- mapb (fd_blocks f) ;; ret (FootnoteDefinition (fd_label f) bs)) ;;
         ret (BFootnoteDefinition f')
     | BGitHubAlert a =>
         a' <- tr_github_alert t a
                 (bs <- mapb (ga_blocks a) ;; ret (GitHubAlert (ga_type a) bs)) ;;
         ret (BGitHubAlert a')
     | BDefinition d =>
         lb <- mapM transform_inline (ld_label d) ;;
         ret (BDefinition (LinkDefinition lb (ld_destination d) (ld_title d)))
     | BCodeBlock c => c' <- tr_code_block t c (ret c) ;; ret (BCodeBlock c')
     | other => ret other
     end).

(** transformer.rs:57-59, 125-133 *)
Definition transform_document (d : document) : M S document :=
  tr_document t d (bs <- mapM transform_block (d_blocks d) ;; ret (Document bs)).

(** transformer.rs:471-473 [walk_expand_inline] *)
Definition walk_expand_inline (i : inline) : M S (list inline) :=
  tr_walk_expand_inline t i (i' <- transform_inline i ;; ret [i']).
(** transformer.rs:307-309 [expand_block], 324-326 [expand_table_cell] *)
Definition expand_block (b : block) : M S (list block) :=
  tr_expand_block t b (b' <- transform_block b ;; ret [b']).
Definition expand_table_cell (c : table_cell) : M S (list table_cell) :=
  tr_expand_table_cell t c (c' <- transform_table_cell c ;; ret [c']).
(** transformer.rs:485-493 [walk_expand_list_item], 495-502 [walk_expand_table_row] *)
Definition walk_expand_list_item (it : list_item) : M S (list list_item) :=
  bs <- flat_mapM expand_block (li_blocks it) ;; ret [ListItem (li_task it) bs].
Definition walk_expand_table_row (r : table_row) : M S (list table_row) :=
  r' <- flat_mapM expand_table_cell r ;; ret [r'].

(** transformer.rs:398-469 [walk_expand_block] *)
Fixpoint walk_expand_block (b : block) : M S (list block) :=
  tr_walk_expand_block t b
    (match b with
     | BParagraph c => c' <- flat_mapM walk_expand_inline c ;; ret [BParagraph c']
     | BHeading h =>
         c' <- flat_mapM walk_expand_inline (h_content h) ;; ret [BHeading (Heading (h_kind h) c')]
     | BBlockQuote bs => bs' <- flat_mapM walk_expand_block bs ;; ret [BBlockQuote bs']
     | BList l =>
         items <- flat_mapM walk_expand_list_item (l_items l) ;;
         ret [BList (MkList (l_kind l) items)]
     | BTable tb =>
         rows <- flat_mapM walk_expand_table_row (t_rows tb) ;;
         ret [BTable (Table rows (t_alignments tb))]
     | BFootnoteDefinition f =>
         bs <- flat_mapM walk_expand_block (fd_blocks f) ;;
         ret [BFootnoteDefinition (FootnoteDefinition (fd_label f) bs)]
     | BGitHubAlert a =>
         bs <- flat_mapM walk_expand_block (ga_blocks a) ;;
         ret [BGitHubAlert (GitHubAlert (ga_type a) bs)]
     | BDefinition d =>
         lb <- flat_mapM walk_expand_inline (ld_label d) ;;
         ret [BDefinition (LinkDefinition lb (ld_destination d) (ld_title d))]
     | other => b' <- transform_block other ;; ret [b']
     end).

(** transformer.rs:384-391 [walk_expand_document]; 620-624 [expand_with] *)
Definition expand_document (d : document) : M S (list document) :=
  bs <- flat_mapM walk_expand_block (d_blocks d) ;; ret [Document bs].

(** transformer.rs:295-375: the other [expand_*] methods, called directly *)
Definition transform_link (l : link) : M S link :=
  tr_link t l (c' <- mapM transform_inline (link_children l) ;; ret (Link (link_destination l) (link_title l) c')).
Definition transform_list_item (it : list_item) : M S list_item :=
  tr_list_item t it (bs <- mapM transform_block (li_blocks it) ;; ret (ListItem (li_task it) bs)).
Definition transform_footnote_definition (f : footnote_definition) : M S footnote_definition :=
  tr_footnote_definition t f (bs <- mapM transform_block (fd_blocks f) ;; ret (FootnoteDefinition (fd_label f) bs)).
Definition transform_github_alert (a : github_alert) : M S github_alert :=
  tr_github_alert t a (bs <- mapM transform_block (ga_blocks a) ;; ret (GitHubAlert (ga_type a) bs)).
Definition one {A} (m : M S A) : M S (list A) := x <- m ;; ret [x].
Definition call_expand_document d := ex_document (tr_expanders t) d (one (transform_document d)).
Definition call_expand_inline i := ex_inline (tr_expanders t) i (one (transform_inline i)).
Definition call_expand_list_item it := ex_list_item (tr_expanders t) it (one (transform_list_item it)).
Definition call_expand_table_row r := ex_table_row (tr_expanders t) r (one (transform_table_row r)).
Definition call_expand_heading h := ex_heading (tr_expanders t) h (one (transform_heading h)).
Definition call_expand_link l := ex_link (tr_expanders t) l (one (transform_link l)).
Definition call_expand_image im := ex_image (tr_expanders t) im (one (tr_image t im (ret im))).
Definition call_expand_code_block c := ex_code_block (tr_expanders t) c (one (tr_code_block t c (ret c))).
Definition call_expand_text x := ex_text (tr_expanders t) x (one (tr_text t x (ret x))).
Definition call_expand_footnote_definition f :=
  ex_footnote_definition (tr_expanders t) f (one (transform_footnote_definition f)).
Definition call_expand_github_alert a := ex_github_alert (tr_expanders t) a (one (transform_github_alert a)).
(** transformer.rs:476-482, 505-562: the walks nothing calls; the walks of images,
    code blocks and texts return their argument *)
Definition walk_expand_table_cell (c : table_cell) : M S (list table_cell) :=
  c' <- flat_mapM call_expand_inline c ;; ret [c'].
Definition walk_expand_heading (h : heading) : M S (list heading) :=
  c <- flat_mapM call_expand_inline (h_content h) ;; ret [Heading (h_kind h) c].
Definition walk_expand_link (l : link) : M S (list link) :=
  c <- flat_mapM call_expand_inline (link_children l) ;; ret [Link (link_destination l) (link_title l) c].
Definition walk_expand_image (im : image) : M S (list image) := ret [im].
Definition walk_expand_code_block (c : code_block) : M S (list code_block) := ret [c].
Definition walk_expand_text (x : str) : M S (list str) := ret [x].
Definition walk_expand_footnote_definition (f : footnote_definition) : M S (list footnote_definition) :=
  bs <- flat_mapM expand_block (fd_blocks f) ;; ret [FootnoteDefinition (fd_label f) bs].
Definition walk_expand_github_alert (a : github_alert) : M S (list github_alert) :=
  bs <- flat_mapM expand_block (ga_blocks a) ;; ret [GitHubAlert (ga_type a) bs].
End Transform.

(** ** convenience.rs *)

(** convenience.rs:202-207 [TextTransformer] *)
Definition text_transformer (f : str -> str) : transformer unit :=
  with_inline (fun i w _ => match i with IText s => ret (IText (f s)) | _ => w end)
    (default_transformer unit).
(** convenience.rs:227-235 [ImageUrlTransformer] *)
Definition image_url_transformer (f : str -> str) : transformer unit :=
  with_inline (fun i w _ => match i with
     | IImage im => ret (IImage (Image (f (image_destination im)) (image_title im) (image_alt im)))
     | _ => w end) (default_transformer unit).
(** convenience.rs:255-268 [LinkUrlTransformer] *)
Definition link_url_transformer (f : str -> str) : transformer unit :=
  with_inline (fun i w kids => match i with
     | ILink l => c <- kids ;; ret (ILink (Link (f (link_destination l)) (link_title l) c))
     | _ => w end) (default_transformer unit).
(** convenience.rs:288-293 [AutolinkTransformer] *)
Definition autolink_transformer (f : str -> str) : transformer unit :=
  with_inline (fun i w _ => match i with IAutolink u => ret (IAutolink (f u)) | _ => w end)
    (default_transformer unit).
(** convenience.rs:313-318 [CodeTransformer] *)
Definition code_transformer (f : str -> str) : transformer unit :=
  with_inline (fun i w _ => match i with ICode u => ret (ICode (f u)) | _ => w end)
    (default_transformer unit).
(** convenience.rs:338-350 [HtmlTransformer] *)
Definition html_transformer (f : str -> str) : transformer unit :=
  with_block (fun b w => match b with BHtmlBlock s => ret (BHtmlBlock (f s)) | _ => w end)
   (with_inline (fun i w _ => match i with IHtml u => ret (IHtml (f u)) | _ => w end)
    (default_transformer unit)).
(** convenience.rs:397-404 [EmptyTextRemover] *)
Definition empty_text_remover : transformer unit :=
  with_inline (fun i w _ => match i with
     | IText s => match trim s with [] => ret IEmpty | _ => w end
     | _ => w end) (default_transformer unit).

Definition run {A} (m : M unit A) : A := fst (m tt).

(** convenience.rs:118-168 (impl Transform for Document) *)
Definition transform_text (f : str -> str) (d : document) := run (transform_document (text_transformer f) d).
Definition transform_image_urls (f : str -> str) (d : document) := run (transform_document (image_url_transformer f) d).
Definition transform_link_urls (f : str -> str) (d : document) := run (transform_document (link_url_transformer f) d).
Definition transform_autolink_urls (f : str -> str) (d : document) := run (transform_document (autolink_transformer f) d).
Definition transform_code (f : str -> str) (d : document) := run (transform_document (code_transformer f) d).
Definition transform_html (f : str -> str) (d : document) := run (transform_document (html_transformer f) d).
(** convenience.rs:170-180 *)
Definition transform_if_doc (p : document -> bool) (f : document -> document) (d : document) : document :=
  if p d then f d else d.
(** convenience.rs:371-392 (impl FilterTransform for Document) *)
Definition remove_empty_paragraphs (d : document) : document :=
  Document (filter (fun b => negb (match b with BParagraph [] => true | _ => false end)) (d_blocks d)).
Definition remove_empty_text (d : document) : document := run (transform_document empty_text_remover d).
Definition normalize_whitespace (d : document) : document :=
  transform_text (fun s => join [c_sp] (split_whitespace s)) d.
Definition filter_blocks (p : block -> bool) (d : document) : document :=
  Document (filter p (d_blocks d)).

(** ** pipeline.rs: a pipeline is a vector of boxed document functions *)
Definition pipeline := list (document -> document).
(** pipeline.rs:54-56, 59-136, 169-199 [TransformPipeline::new] and the builder methods, all of which push one step *)
Definition pl_new : pipeline := [].
Definition pl_push (p : pipeline) (f : document -> document) : pipeline := p ++ [f].
Definition pl_transform_text p f : pipeline := pl_push p (transform_text f).
Definition pl_transform_image_urls p f : pipeline := pl_push p (transform_image_urls f).
Definition pl_transform_link_urls p f : pipeline := pl_push p (transform_link_urls f).
Definition pl_transform_autolink_urls p f : pipeline := pl_push p (transform_autolink_urls f).
Definition pl_transform_code p f : pipeline := pl_push p (transform_code f).
Definition pl_transform_html p f : pipeline := pl_push p (transform_html f).
Definition pl_custom p f : pipeline := pl_push p f.
Definition pl_remove_empty_paragraphs p : pipeline := pl_push p remove_empty_paragraphs.
Definition pl_remove_empty_text p : pipeline := pl_push p remove_empty_text.
Definition pl_normalize_whitespace p : pipeline := pl_push p normalize_whitespace.
Definition pl_filter_blocks p f : pipeline := pl_push p (filter_blocks f).
(** pipeline.rs:202-207 [apply] *)
Definition pl_apply (p : pipeline) (d : document) : document :=
  fold_left (fun d step => step d) p d.
(** pipeline.rs:139-149 [when] *)
Definition pl_when (p : pipeline) (cond : bool) (builder : pipeline -> pipeline) : pipeline :=
  if cond then let sub := builder pl_new in pl_push p (fun d => pl_apply sub d) else p.
(** pipeline.rs:152-166 [when_doc] *)
Definition pl_when_doc (p : pipeline) (pred : document -> bool) (builder : pipeline -> pipeline) : pipeline :=
  pl_push p (fun d => if pred d then pl_apply (builder pl_new) d else d).
(** pipeline.rs:122-127 [transform_with] (the transformer is consumed with its initial state) *)
Definition pl_transform_with {S} (p : pipeline) (t : transformer S) (s0 : S) : pipeline :=
  pl_push p (fun d => fst (transform_document t d s0)).

(** ** transformer.rs:640-685 [CompositeTransformer]: boxed transformers with
    their own state, reduced to the three methods the composite calls. *)
Record boxed := Boxed { bx_S : Type; bx_state : bx_S; bx_t : transformer bx_S }.

Definition boxed_step {A} (m : forall S, transformer S -> A -> M S A) (b : boxed) (a : A) : A * boxed :=
  let '(a', s') := m (bx_S b) (bx_t b) a (bx_state b) in
  (a', Boxed (bx_S b) s' (bx_t b)).

(** the [for transformer in &mut self.transformers] loops, 665-684 *)
Fixpoint boxed_run {A} (m : forall S, transformer S -> A -> M S A) (bs : list boxed) (a : A)
  : A * list boxed :=
  match bs with
  | [] => (a, [])
  | b :: bs' => let '(a1, b1) := boxed_step m b a in
                let '(a2, bs2) := boxed_run m bs' a1 in (a2, b1 :: bs2)
  end.

Definition composite : transformer (list boxed) :=
  with_document (fun d _ => fun bs => boxed_run (fun S t x => transform_document t x) bs d)
   (with_block (fun b _ => fun bs => boxed_run (fun S t x => transform_block t x) bs b)
    (with_inline (fun i _ _ => fun bs => boxed_run (fun S t x => transform_inline t x) bs i)
      (default_transformer (list boxed)))).
