(** /repo/src/ast_transform/generic_transformer.rs: the [GenericTransformer<T>]
    trait as a record of overridable methods, each receiving the node and its
    default continuation (same conventions and simplification as
    Transformer.v). *)
From Verif Require Export GenericAst Transformer.

Record gtransformer (S T : Type) := GTransformer {
  gtr_document : gdocument T -> M S (gdocument T) -> M S (gdocument T);
  gtr_block : gblock T -> M S (gblock T) -> M S (gblock T);
  gtr_inline : ginline T -> M S (ginline T) -> M S (ginline T);
  gtr_table_cell : list (ginline T) -> M S (list (ginline T)) -> M S (list (ginline T));
  gtr_list_item : glist_item T -> M S (glist_item T) -> M S (glist_item T);
  gtr_table_row : list (list (ginline T)) -> M S (list (list (ginline T))) -> M S (list (list (ginline T)));
  gtr_heading : gheading T -> M S (gheading T) -> M S (gheading T);
  gtr_link : glink T -> M S (glink T) -> M S (glink T);
  gtr_image : gimage T -> M S (gimage T) -> M S (gimage T);
  gtr_code_block : gcode_block T -> M S (gcode_block T) -> M S (gcode_block T);
  gtr_footnote_definition : gfootnote_definition T -> M S (gfootnote_definition T) -> M S (gfootnote_definition T);
  gtr_github_alert : ggithub_alert T -> M S (ggithub_alert T) -> M S (ggithub_alert T);
  (* expansion methods; [expand_document], [expand_block], [expand_inline] and
     [expand_table_cell] are part of the trait but no method reachable from
     [expand_with] calls them *)
  gtr_expand_document : gdocument T -> M S (list (gdocument T)) -> M S (list (gdocument T));
  gtr_expand_table_cell : list (ginline T) -> M S (list (list (ginline T))) -> M S (list (list (ginline T)));
  gtr_expand_block : gblock T -> M S (list (gblock T)) -> M S (list (gblock T));
  gtr_expand_inline : ginline T -> M S (list (ginline T)) -> M S (list (ginline T));
  gtr_expand_heading : gheading T -> M S (list (gheading T)) -> M S (list (gheading T));
  gtr_expand_link : glink T -> M S (list (glink T)) -> M S (list (glink T));
  gtr_expand_image : gimage T -> M S (list (gimage T)) -> M S (list (gimage T));
  gtr_expand_code_block : gcode_block T -> M S (list (gcode_block T)) -> M S (list (gcode_block T));
  gtr_expand_list_item : glist_item T -> M S (list (glist_item T)) -> M S (list (glist_item T));
  gtr_expand_table_row : list (list (ginline T)) -> M S (list (list (list (ginline T)))) -> M S (list (list (list (ginline T))));
  gtr_expand_footnote : gfootnote_definition T -> M S (list (gfootnote_definition T)) -> M S (list (gfootnote_definition T));
  gtr_expand_alert : ggithub_alert T -> M S (list (ggithub_alert T)) -> M S (list (ggithub_alert T));
  gtr_walk_expand_block : gblock T -> M S (list (gblock T)) -> M S (list (gblock T));
  gtr_walk_expand_inline : ginline T -> M S (list (ginline T)) -> M S (list (ginline T)) }.
Arguments GTransformer {S T}. Arguments gtr_document {S T}. Arguments gtr_block {S T}.
Arguments gtr_inline {S T}. Arguments gtr_table_cell {S T}. Arguments gtr_list_item {S T}.
Arguments gtr_table_row {S T}. Arguments gtr_heading {S T}. Arguments gtr_link {S T}.
Arguments gtr_image {S T}. Arguments gtr_code_block {S T}. Arguments gtr_footnote_definition {S T}.
Arguments gtr_github_alert {S T}. Arguments gtr_expand_document {S T}. Arguments gtr_expand_table_cell {S T}. Arguments gtr_expand_block {S T}. Arguments gtr_expand_inline {S T}.
Arguments gtr_expand_heading {S T}. Arguments gtr_expand_link {S T}. Arguments gtr_expand_image {S T}.
Arguments gtr_expand_code_block {S T}. Arguments gtr_expand_list_item {S T}.
Arguments gtr_expand_table_row {S T}. Arguments gtr_expand_footnote {S T}. Arguments gtr_expand_alert {S T}.
Arguments gtr_walk_expand_block {S T}. Arguments gtr_walk_expand_inline {S T}.

(** generic_transformer.rs:53-173: every method left at its default. *)
Definition default_gtransformer (S T : Type) : gtransformer S T :=
  GTransformer (fun _ w => w) (fun _ w => w) (fun _ w => w) (fun _ w => w) (fun _ w => w)
    (fun _ w => w) (fun _ w => w) (fun _ w => w) (fun _ w => w) (fun _ w => w) (fun _ w => w)
    (fun _ w => w) (fun _ w => w) (fun _ w => w) (fun _ w => w) (fun _ w => w) (fun _ w => w)
    (fun _ w => w) (fun _ w => w) (fun _ w => w) (fun _ w => w) (fun _ w => w) (fun _ w => w)
    (fun _ w => w) (fun _ w => w) (fun _ w => w).

(** The trait with the four methods replaced that expansion never calls
    ([expand_block] is what the module's own example overrides,
    generic_transformer.rs:19-41). *)
Definition override_uncalled {S T}
  (fd : gdocument T -> M S (list (gdocument T)) -> M S (list (gdocument T)))
  (fc : list (ginline T) -> M S (list (list (ginline T))) -> M S (list (list (ginline T))))
  (fb : gblock T -> M S (list (gblock T)) -> M S (list (gblock T)))
  (fi : ginline T -> M S (list (ginline T)) -> M S (list (ginline T)))
  (t : gtransformer S T) : gtransformer S T :=
  GTransformer (gtr_document t) (gtr_block t) (gtr_inline t) (gtr_table_cell t) (gtr_list_item t)
    (gtr_table_row t) (gtr_heading t) (gtr_link t) (gtr_image t) (gtr_code_block t)
    (gtr_footnote_definition t) (gtr_github_alert t) fd fc fb fi (gtr_expand_heading t)
    (gtr_expand_link t) (gtr_expand_image t) (gtr_expand_code_block t) (gtr_expand_list_item t)
    (gtr_expand_table_row t) (gtr_expand_footnote t) (gtr_expand_alert t) (gtr_walk_expand_block t)
    (gtr_walk_expand_inline t).

Section GTransform.
Context {S T : Type} (t : gtransformer S T).

(** generic_transformer.rs:65-67, 229-272 [walk_transform_inline], 314-322
    [walk_transform_link], 324-328 [walk_transform_image] *)
Fixpoint gtransform_inline (i : ginline T) : M S (ginline T) :=
  let maps := mapM gtransform_inline in
  gtr_inline t i
    (match i with
     | GIEmphasis c u => c' <- maps c ;; ret (GIEmphasis c' u)
     | GIStrong c u => c' <- maps c ;; ret (GIStrong c' u)
     | GIStrikethrough c u => c' <- maps c ;; ret (GIStrikethrough c' u)
     | GILink l =>
         l' <- gtr_link t l
                 (c' <- maps (gl_children l) ;;
                  ret (GLink (gl_destination l) (gl_title l) c' (gl_data l))) ;;
         ret (GILink l')
     | GILinkReference l =>
         lb <- maps (glr_label l) ;; tx <- maps (glr_text l) ;;
         ret (GILinkReference (GLinkReference lb tx (glr_data l)))
     | GIImage im => im' <- gtr_image t im (ret im) ;; ret (GIImage im')
     | other => ret other
     end).
Definition gtransform_link (l : glink T) : M S (glink T) :=
  gtr_link t l (c' <- mapM gtransform_inline (gl_children l) ;;
                ret (GLink (gl_destination l) (gl_title l) c' (gl_data l))).

(** generic_transformer.rs:274-279, 291-295, 297-306 *)
Definition gtransform_table_cell (c : list (ginline T)) := gtr_table_cell t c (mapM gtransform_inline c).
Definition gtransform_table_row (r : list (list (ginline T))) := gtr_table_row t r (mapM gtransform_table_cell r).
Definition gtransform_heading (h : gheading T) : M S (gheading T) :=
  gtr_heading t h (c <- mapM gtransform_inline (gh_content h) ;; ret (GHeading (gh_kind h) c (gh_data h))).

(** generic_transformer.rs:60-62, 189-227 [walk_transform_block], 281-289
    [walk_transform_list_item], 336-357 footnotes and alerts, 362-380 containers *)
Fixpoint gtransform_block (b : gblock T) : M S (gblock T) :=
  let mapb := mapM gtransform_block in
  gtr_block t b
    (match b with
     | GBParagraph c u => c' <- mapM gtransform_inline c ;; ret (GBParagraph c' u)
     | GBHeading h => h' <- gtransform_heading h ;; ret (GBHeading h')
     | GBBlockQuote bs u => bs' <- mapb bs ;; ret (GBBlockQuote bs' u)
     | GBList l =>
         items <- mapM (fun it => gtr_list_item t it
                          (bs <- mapb (gli_blocks it) ;; ret (GListItem (gli_task it) bs (gli_data it))))
                    (gll_items l) ;;
         ret (GBList (GMkList (gll_kind l) items (gll_data l)))
     | GBTable tb =>
         rows <- mapM gtransform_table_row (gt_rows tb) ;;
         ret (GBTable (GTable rows (gt_alignments tb) (gt_data tb)))
     | GBFootnoteDefinition f =>
         f' <- gtr_footnote_definition t f
                 (bs <- mapb (gfd_blocks f) ;; ret (GFootnoteDefinition (gfd_label f) bs (gfd_data f))) ;;
         ret (GBFootnoteDefinition f')
     | GBGitHubAlert a =>
         a' <- gtr_github_alert t a
                 (bs <- mapb (gga_blocks a) ;; ret (GGitHubAlert (gga_type a) bs (gga_data a))) ;;
         ret (GBGitHubAlert a')
     | GBDefinition d =>
         lb <- mapM gtransform_inline (gld_label d) ;;
         ret (GBDefinition (GLinkDefinition lb (gld_destination d) (gld_title d) (gld_data d)))
     | GBCodeBlock c => c' <- gtr_code_block t c (ret c) ;; ret (GBCodeBlock c')
     | other => ret other
     end).
Definition gtransform_list_item (it : glist_item T) : M S (glist_item T) :=
  gtr_list_item t it (bs <- mapM gtransform_block (gli_blocks it) ;; ret (GListItem (gli_task it) bs (gli_data it))).
Definition gtransform_footnote (f : gfootnote_definition T) : M S (gfootnote_definition T) :=
  gtr_footnote_definition t f (bs <- mapM gtransform_block (gfd_blocks f) ;; ret (GFootnoteDefinition (gfd_label f) bs (gfd_data f))).
Definition gtransform_alert (a : ggithub_alert T) : M S (ggithub_alert T) :=
  gtr_github_alert t a (bs <- mapM gtransform_block (gga_blocks a) ;; ret (GGitHubAlert (gga_type a) bs (gga_data a))).

(** generic_transformer.rs:55-57, 179-187 *)
Definition gtransform_document (d : gdocument T) : M S (gdocument T) :=
  gtr_document t d (bs <- mapM gtransform_block (gd_blocks d) ;; ret (GDocument bs (gd_data d))).

(** [vec.into_iter().map(C).collect()] *)
Definition map_ret {A B} (f : A -> B) (m : M S (list A)) : M S (list B) := l <- m ;; ret (map f l).
Definition single {A} (m : M S A) : M S (list A) := x <- m ;; ret [x].

(** generic_transformer.rs:467-517 [walk_expand_inline] *)
Fixpoint gwalk_expand_inline (i : ginline T) : M S (list (ginline T)) :=
  let fm := flat_mapM gwalk_expand_inline in
  gtr_walk_expand_inline t i
    (match i with
     | GIEmphasis c u => c' <- fm c ;; ret [GIEmphasis c' u]
     | GIStrong c u => c' <- fm c ;; ret [GIStrong c' u]
     | GIStrikethrough c u => c' <- fm c ;; ret [GIStrikethrough c' u]
     | GILink l => map_ret GILink (gtr_expand_link t l (single (gtransform_link l)))
     | GILinkReference l =>
         lb <- fm (glr_label l) ;; tx <- fm (glr_text l) ;;
         ret [GILinkReference (GLinkReference lb tx (glr_data l))]
     | GIImage im => map_ret GIImage (gtr_expand_image t im (single (gtr_image t im (ret im))))
     | other => ret [other]
     end).

(** generic_transformer.rs:398-465 [walk_expand_block], 519-541 containers *)
Fixpoint gwalk_expand_block (b : gblock T) : M S (list (gblock T)) :=
  gtr_walk_expand_block t b
    (match b with
     | GBParagraph c u => c' <- flat_mapM gwalk_expand_inline c ;; ret [GBParagraph c' u]
     | GBHeading h => map_ret GBHeading (gtr_expand_heading t h (single (gtransform_heading h)))
     | GBBlockQuote bs u => bs' <- flat_mapM gwalk_expand_block bs ;; ret [GBBlockQuote bs' u]
     | GBList l =>
         items <- flat_mapM (fun it => gtr_expand_list_item t it (single (gtransform_list_item it))) (gll_items l) ;;
         ret [GBList (GMkList (gll_kind l) items (gll_data l))]
     | GBTable tb =>
         rows <- flat_mapM (fun r => gtr_expand_table_row t r (single (gtransform_table_row r))) (gt_rows tb) ;;
         ret [GBTable (GTable rows (gt_alignments tb) (gt_data tb))]
     | GBFootnoteDefinition f =>
         map_ret GBFootnoteDefinition (gtr_expand_footnote t f (single (gtransform_footnote f)))
     | GBGitHubAlert a => map_ret GBGitHubAlert (gtr_expand_alert t a (single (gtransform_alert a)))
     | GBDefinition d =>
         lb <- flat_mapM gwalk_expand_inline (gld_label d) ;;
         ret [GBDefinition (GLinkDefinition lb (gld_destination d) (gld_title d) (gld_data d))]
     | GBCodeBlock c => map_ret GBCodeBlock (gtr_expand_code_block t c (single (gtr_code_block t c (ret c))))
     | other => ret [other]
     end).

(** generic_transformer.rs:386-396 [walk_expand_document], 567-571 [expand_with] *)
Definition gexpand_document (d : gdocument T) : M S (list (gdocument T)) :=
  bs <- flat_mapM gwalk_expand_block (gd_blocks d) ;; ret [GDocument bs (gd_data d)].

(** generic_transformer.rs:119-136: the methods expansion never calls, called directly *)
Definition gcall_expand_document (d : gdocument T) := gtr_expand_document t d (single (gtransform_document d)).
Definition gcall_expand_block (b : gblock T) := gtr_expand_block t b (single (gtransform_block b)).
Definition gcall_expand_inline (i : ginline T) := gtr_expand_inline t i (single (gtransform_inline i)).
Definition gcall_expand_table_cell (c : list (ginline T)) := gtr_expand_table_cell t c (single (gtransform_table_cell c)).
End GTransform.
