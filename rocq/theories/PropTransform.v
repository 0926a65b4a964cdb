(** Properties C05-C21: queries, visitors, transformers, pipelines, expansion.
    Specifications used: SpecAst.v (document-order listings) and
    SpecTransform.v (events, [map_strings], [strings_of], [skeleton],
    [splice_block], [words], [canonical]). *)
From Verif Require Import ExpandFacts SpecTransform Sample.
From Coq Require Import String List.
Import ListNotations.

(** C05 *)
Theorem C05_find_all_inlines : forall p d, find_all_inlines_doc p d = filter p (doc_inlines d).
Proof. exact find_all_inlines_eq. Qed.
Print Assumptions C05_find_all_inlines.
Theorem C05_find_all_blocks : forall p d, find_all_blocks_doc p d = filter p (doc_blocks d).
Proof. exact find_all_blocks_eq. Qed.
Print Assumptions C05_find_all_blocks.
Theorem C05_find_all_inlines_in_block : forall p b,
  find_all_inlines_block p b = filter p (doc_inlines (Document [b])).
Proof. exact find_all_inlines_block_eq. Qed.
Print Assumptions C05_find_all_inlines_in_block.
Theorem C05_find_all_inlines_in_list : forall p l,
  find_all_inlines_vec p l = filter p (flat_map inline_preorder l).
Proof. exact find_all_inlines_vec_eq. Qed.
Print Assumptions C05_find_all_inlines_in_list.
Example C05_example : length (find_all_inlines_doc (fun i => match i with IText _ => true | _ => false end) sample) = 15.
Proof. vm_compute. reflexivity. Qed.

(** C06 *)
Theorem C06_find_first_inline : forall p d, find_first_inline_doc p d = hd_error (find_all_inlines_doc p d).
Proof. exact find_first_inline_hd. Qed.
Print Assumptions C06_find_first_inline.
Theorem C06_find_first_block : forall p d, find_first_block_doc p d = hd_error (find_all_blocks_doc p d).
Proof. exact find_first_block_hd. Qed.
Print Assumptions C06_find_first_block.
Theorem C06_any_inline : forall p d, any_inline_doc p d = true <-> exists i, In i (doc_inlines d) /\ p i = true.
Proof. exact any_inline_iff. Qed.
Print Assumptions C06_any_inline.
Theorem C06_any_block : forall p d, any_block_doc p d = true <-> exists b, In b (doc_blocks d) /\ p b = true.
Proof. exact any_block_iff. Qed.
Print Assumptions C06_any_block.
Theorem C06_count_inlines : forall p d, count_inlines_doc p d = length (filter p (doc_inlines d)).
Proof. exact count_inlines_eq. Qed.
Print Assumptions C06_count_inlines.
Theorem C06_count_blocks : forall p d, count_blocks_doc p d = length (filter p (doc_blocks d)).
Proof. exact count_blocks_eq. Qed.
Print Assumptions C06_count_blocks.
Example C06_example : let p i := match i with IText _ => true | _ => false end in let q b := match b with BTable _ => true | _ => false end in
  find_first_inline_doc p sample = Some (IText (lit "Title ")) /\ count_inlines_doc p sample = 15 /\
  any_block_doc q sample = true /\ count_blocks_doc q sample = 1 /\ any_inline_doc (fun i => match i with IEmpty => true | _ => false end) sample = false.
Proof. vm_compute. auto. Qed.

(** C07 *)
Theorem C07_typed_finders : forall d,
  find_all_links d = flat_map (fun i => match i with ILink l => [l] | _ => [] end) (doc_inlines d) /\
  find_all_images d = flat_map (fun i => match i with IImage l => [l] | _ => [] end) (doc_inlines d) /\
  find_all_autolinks d = flat_map (fun i => match i with IAutolink l => [l] | _ => [] end) (doc_inlines d) /\
  find_all_text d = flat_map (fun i => match i with IText l => [l] | _ => [] end) (doc_inlines d) /\
  find_all_code_spans d = flat_map (fun i => match i with ICode l => [l] | _ => [] end) (doc_inlines d) /\
  find_all_headings d = flat_map (fun b => match b with BHeading l => [l] | _ => [] end) (doc_blocks d) /\
  find_all_code_blocks d = flat_map (fun b => match b with BCodeBlock l => [l] | _ => [] end) (doc_blocks d) /\
  find_all_tables d = flat_map (fun b => match b with BTable l => [l] | _ => [] end) (doc_blocks d) /\
  find_all_lists d = flat_map (fun b => match b with BList l => [l] | _ => [] end) (doc_blocks d).
Proof. exact typed_finders_eq. Qed.
Print Assumptions C07_typed_finders.
Example C07_example : find_all_text sample = map lit
  ["Title "; "bold"; "  see   the "; "link"; "q"; " "; "one"; "two"; "a"; "b"; "c"; "l"; "l"; "txt"; "w"]%string.
Proof. vm_compute. reflexivity. Qed.

(** C08: a visitor whose 13 hooks each record something about their node and
    then continue with the default walk records, for any choice of recording
    functions, exactly the document's events in order. *)
Theorem C08_visitor_order : forall A fd fb fi fc fit fr fh fl fim fcb ft ff fa d r,
  visit_document (collecting_visitor A fd fb fi fc fit fr fh fl fim fcb ft ff fa) d r
  = r ++ flat_map (on_event A fd fb fi fc fit fr fh fl fim fcb ft ff fa) (events_document d).
Proof. exact visit_document_collect. Qed.
Print Assumptions C08_visitor_order.
(** The events mention every inline and every block exactly once, in document order. *)
Theorem C08_events_inlines : forall d,
  flat_map (fun e => match e with EInline i => [i] | _ => [] end) (events_document d) = doc_inlines d.
Proof. exact events_document_inlines. Qed.
Print Assumptions C08_events_inlines.
Theorem C08_events_blocks : forall d,
  flat_map (fun e => match e with EBlock i => [i] | _ => [] end) (events_document d) = doc_blocks d.
Proof. exact events_document_blocks. Qed.
Print Assumptions C08_events_blocks.
Example C08_example : length (events_document sample) = 74.
Proof. vm_compute. reflexivity. Qed.

(** C09 *)
Theorem C09_visitor_agrees_with_query_inlines : forall (p : inline -> bool) d,
  visit_document (collecting_visitor inline (fun _ => []) (fun _ => []) (fun i => if p i then [i] else []) (fun _ => []) (fun _ => []) (fun _ => []) (fun _ => []) (fun _ => []) (fun _ => []) (fun _ => []) (fun _ => []) (fun _ => []) (fun _ => [])) d []
  = find_all_inlines_doc p d.
Proof. exact visitor_query_inlines. Qed.
Print Assumptions C09_visitor_agrees_with_query_inlines.
Theorem C09_visitor_agrees_with_query_blocks : forall (p : block -> bool) d,
  visit_document (collecting_visitor block (fun _ => []) (fun i => if p i then [i] else []) (fun _ => []) (fun _ => []) (fun _ => []) (fun _ => []) (fun _ => []) (fun _ => []) (fun _ => []) (fun _ => []) (fun _ => []) (fun _ => []) (fun _ => [])) d []
  = find_all_blocks_doc p d.
Proof. exact visitor_query_blocks. Qed.
Print Assumptions C09_visitor_agrees_with_query_blocks.
Example C09_example : length (visit_document (collecting_visitor inline (fun _ => []) (fun _ => []) (fun i => match i with IText _ => [i] | _ => [] end)
    (fun _ => []) (fun _ => []) (fun _ => []) (fun _ => []) (fun _ => []) (fun _ => []) (fun _ => []) (fun _ => []) (fun _ => []) (fun _ => [])) sample []) = 15.
Proof. vm_compute. reflexivity. Qed.

(** C10 *)
Theorem C10_default_transformer_identity : forall S (s : S),
  (forall d, transform_document (default_transformer S) d s = (d, s)) /\
  (forall b, transform_block (default_transformer S) b s = (b, s)) /\
  (forall i, transform_inline (default_transformer S) i s = (i, s)).
Proof. exact default_transforms. Qed.
Print Assumptions C10_default_transformer_identity.
Example C10_example : transform_document (default_transformer nat) sample 3 = (sample, 3) /\ length (doc_inlines sample) = 26.
Proof. vm_compute. auto. Qed.

(** C11-C13: each convenience method maps exactly the strings of its kind... *)
Theorem C11_transform_text : forall f d, transform_text f d = map_strings KText f d.
Proof. exact transform_text_eq. Qed.
Print Assumptions C11_transform_text.
Theorem C12_transform_image_urls : forall f d, transform_image_urls f d = map_strings KImageUrl f d.
Proof. exact transform_image_urls_eq. Qed.
Print Assumptions C12_transform_image_urls.
Theorem C12_transform_link_urls : forall f d, transform_link_urls f d = map_strings KLinkUrl f d.
Proof. exact transform_link_urls_eq. Qed.
Print Assumptions C12_transform_link_urls.
Theorem C12_transform_autolink_urls : forall f d, transform_autolink_urls f d = map_strings KAutolink f d.
Proof. exact transform_autolink_urls_eq. Qed.
Print Assumptions C12_transform_autolink_urls.
Theorem C13_transform_code : forall f d, transform_code f d = map_strings KCode f d.
Proof. exact transform_code_eq. Qed.
Print Assumptions C13_transform_code.
Theorem C13_transform_html : forall f d, transform_html f d = map_strings KHtml f d.
Proof. exact transform_html_eq. Qed.
Print Assumptions C13_transform_html.
Example C12_example : strings_of KImageUrl (transform_image_urls (fun u => lit "cdn/" ++ u)%list sample) = [lit "cdn/i.png"] /\
  strings_of KLinkUrl (transform_link_urls (fun _ => lit "z") sample) = [lit "z"] /\ strings_of KAutolink (transform_autolink_urls (fun _ => lit "y") sample) = [lit "y"].
Proof. vm_compute. auto. Qed.
Example C13_example : strings_of KCode (transform_code (fun c => c ++ c)%list sample) = [lit "xx"] /\ strings_of KHtml (transform_html (fun _ => []) sample) = [[]; []].
Proof. vm_compute. auto. Qed.
(** ... which means: the strings of that kind are mapped in place, those of the
    other kinds and everything else stay as they were. *)
Theorem C11_strings_mapped : forall k f d, strings_of k (map_strings k f d) = map f (strings_of k d).
Proof. exact strings_of_map_same. Qed.
Print Assumptions C11_strings_mapped.
Theorem C11_other_strings_kept : forall k k' f d, k <> k' -> strings_of k' (map_strings k f d) = strings_of k' d.
Proof. exact strings_of_map_other. Qed.
Print Assumptions C11_other_strings_kept.
Theorem C11_rest_unchanged : forall k f d, skeleton k (map_strings k f d) = skeleton k d.
Proof. exact skeleton_map. Qed.
Print Assumptions C11_rest_unchanged.
Example C11_example : transform_text (fun _ => lit "Z") sample <> sample
  /\ strings_of KLinkUrl (transform_link_urls (fun u => lit "p/" ++ u)%list sample) = [lit "p/u1"].
Proof. split; [intros H; apply (f_equal find_all_text) in H; vm_compute in H; discriminate|vm_compute; reflexivity]. Qed.

(** C14 *)
Theorem C14_identity : forall k d, map_strings k (fun s => s) d = d.
Proof. exact map_strings_id. Qed.
Print Assumptions C14_identity.
Theorem C14_fusion : forall k f g d, map_strings k g (map_strings k f d) = map_strings k (fun s => g (f s)) d.
Proof. exact map_strings_fuse. Qed.
Print Assumptions C14_fusion.
Theorem C14_commute : forall k1 k2 f g d, k1 <> k2 ->
  map_strings k2 g (map_strings k1 f d) = map_strings k1 f (map_strings k2 g d).
Proof. exact map_strings_commute. Qed.
Print Assumptions C14_commute.
Theorem C14_api_laws : forall f g d,
  transform_text (fun s => s) d = d /\ transform_image_urls (fun s => s) d = d /\
  transform_link_urls (fun s => s) d = d /\ transform_autolink_urls (fun s => s) d = d /\
  transform_code (fun s => s) d = d /\ transform_html (fun s => s) d = d /\
  transform_text g (transform_text f d) = transform_text (fun s => g (f s)) d /\
  transform_image_urls g (transform_image_urls f d) = transform_image_urls (fun s => g (f s)) d /\
  transform_link_urls g (transform_link_urls f d) = transform_link_urls (fun s => g (f s)) d /\
  transform_autolink_urls g (transform_autolink_urls f d) = transform_autolink_urls (fun s => g (f s)) d /\
  transform_code g (transform_code f d) = transform_code (fun s => g (f s)) d /\
  transform_html g (transform_html f d) = transform_html (fun s => g (f s)) d.
Proof. exact api_laws. Qed.
Print Assumptions C14_api_laws.
Example C14_example : let f := (fun s => lit "a" ++ s)%list in let g := (fun s => s ++ lit "b")%list in
  strings_of KCode (transform_code g (transform_code f sample)) = [lit "axb"] /\
  transform_code g (transform_text f sample) = transform_text f (transform_code g sample) /\ transform_text f sample <> sample.
Proof. vm_compute. repeat split. discriminate. Qed.

(** C15 *)
Theorem C15_remove_empty_text : forall d,
  remove_empty_text d = rewrite_document drop_blank (fun u => u) (fun h => h) d.
Proof. exact remove_empty_text_eq. Qed.
Print Assumptions C15_remove_empty_text.
Theorem C15_no_blank_text_left : forall d s,
  In (IText s) (doc_inlines (remove_empty_text d)) -> forallb is_whitespace s = false.
Proof. exact remove_empty_text_no_blank. Qed.
Print Assumptions C15_no_blank_text_left.
Theorem C15_text_kept : forall d,
  strings_of KText (remove_empty_text d) = filter (fun s => negb (forallb is_whitespace s)) (strings_of KText d).
Proof. exact remove_empty_text_texts. Qed.
Print Assumptions C15_text_kept.
Theorem C15_idempotent : forall d, remove_empty_text (remove_empty_text d) = remove_empty_text d.
Proof. exact remove_empty_text_idem. Qed.
Print Assumptions C15_idempotent.
Example C15_example : length (strings_of KText (remove_empty_text sample)) = 14 /\ length (strings_of KText sample) = 15.
Proof. vm_compute. auto. Qed.

(** C16 *)
Theorem C16_canonical : forall d s, In s (strings_of KText (normalize_whitespace d)) -> canonical s.
Proof. exact normalize_whitespace_canonical. Qed.
Print Assumptions C16_canonical.
Theorem C16_words_kept : forall d,
  Forall2 (fun s s' => forall ws, words s ws -> words s' ws)
    (strings_of KText d) (strings_of KText (normalize_whitespace d)).
Proof. exact normalize_whitespace_words. Qed.
Print Assumptions C16_words_kept.
Theorem C16_words_exist : forall s, exists ws, words s ws /\ forall ws', words s ws' -> ws' = ws.
Proof. exact words_exist_unique. Qed.
Print Assumptions C16_words_exist.
Theorem C16_rest_unchanged : forall d, skeleton KText (normalize_whitespace d) = skeleton KText d.
Proof. exact normalize_whitespace_skeleton. Qed.
Print Assumptions C16_rest_unchanged.
Theorem C16_idempotent : forall d, normalize_whitespace (normalize_whitespace d) = normalize_whitespace d.
Proof. exact normalize_whitespace_idem. Qed.
Print Assumptions C16_idempotent.
Example C16_example : nth 2 (strings_of KText (normalize_whitespace sample)) [] = lit "see the".
Proof. vm_compute. reflexivity. Qed.

(** C17 *)
Theorem C17_filter_blocks : forall p d, d_blocks (filter_blocks p d) = filter p (d_blocks d).
Proof. exact filter_blocks_eq. Qed.
Print Assumptions C17_filter_blocks.
Theorem C17_remove_empty_paragraphs : forall d b,
  In b (d_blocks (remove_empty_paragraphs d)) <-> In b (d_blocks d) /\ b <> BParagraph [].
Proof. exact remove_empty_paragraphs_in. Qed.
Print Assumptions C17_remove_empty_paragraphs.
Theorem C17_remove_empty_paragraphs_order : forall d,
  exists keep, d_blocks (remove_empty_paragraphs d) = filter keep (d_blocks d)
    /\ forall b, keep b = false <-> b = BParagraph [].
Proof. exact remove_empty_paragraphs_order. Qed.
Print Assumptions C17_remove_empty_paragraphs_order.
Example C17_example : length (d_blocks (remove_empty_paragraphs sample)) = 10 /\ length (d_blocks sample) = 11.
Proof. vm_compute. auto. Qed.

(** C18 *)
Theorem C18_builder_order : forall p f d, pl_apply (pl_push p f) d = f (pl_apply p d).
Proof. exact pl_apply_push. Qed.
Print Assumptions C18_builder_order.
Theorem C18_empty : forall d, pl_apply pl_new d = d.
Proof. exact pl_apply_new. Qed.
Print Assumptions C18_empty.
Theorem C18_builders : forall p d (f : str -> str) (g : block -> bool) (c : document -> document),
  pl_apply (pl_transform_text p f) d = transform_text f (pl_apply p d) /\
  pl_apply (pl_transform_image_urls p f) d = transform_image_urls f (pl_apply p d) /\
  pl_apply (pl_transform_link_urls p f) d = transform_link_urls f (pl_apply p d) /\
  pl_apply (pl_transform_autolink_urls p f) d = transform_autolink_urls f (pl_apply p d) /\
  pl_apply (pl_transform_code p f) d = transform_code f (pl_apply p d) /\
  pl_apply (pl_transform_html p f) d = transform_html f (pl_apply p d) /\
  pl_apply (pl_custom p c) d = c (pl_apply p d) /\
  pl_apply (pl_remove_empty_paragraphs p) d = remove_empty_paragraphs (pl_apply p d) /\
  pl_apply (pl_remove_empty_text p) d = remove_empty_text (pl_apply p d) /\
  pl_apply (pl_normalize_whitespace p) d = normalize_whitespace (pl_apply p d) /\
  pl_apply (pl_filter_blocks p g) d = filter_blocks g (pl_apply p d).
Proof. exact pl_builders. Qed.
Print Assumptions C18_builders.
Theorem C18_when : forall p c b d,
  pl_apply (pl_when p c b) d = if c then pl_apply (b pl_new) (pl_apply p d) else pl_apply p d.
Proof. exact pl_when_eq. Qed.
Print Assumptions C18_when.
Theorem C18_when_doc : forall p q b d,
  pl_apply (pl_when_doc p q b) d =
  (let d1 := pl_apply p d in if q d1 then pl_apply (b pl_new) d1 else d1).
Proof. exact pl_when_doc_eq. Qed.
Print Assumptions C18_when_doc.
Theorem C18_transform_with : forall S p (t : transformer S) s0 d,
  pl_apply (pl_transform_with p t s0) d = fst (transform_document t (pl_apply p d) s0).
Proof. exact @pl_transform_with_eq. Qed.
Print Assumptions C18_transform_with.
(** Composite transformers: running [xs ++ ys] is running [xs], then [ys] on
    its result, each transformer keeping its own state. *)
Theorem C18_composite_empty : forall d, transform_document composite d [] = (d, []).
Proof. exact composite_nil. Qed.
Print Assumptions C18_composite_empty.
Theorem C18_composite_single : forall S (t : transformer S) s d,
  transform_document composite d [Boxed S s t] =
  (let '(d', s') := transform_document t d s in (d', [Boxed S s' t])).
Proof. exact @composite_single. Qed.
Print Assumptions C18_composite_single.
Theorem C18_composite_sequential : forall xs ys d,
  transform_document composite d (xs ++ ys) =
  (let '(d1, xs') := transform_document composite d xs in
   let '(d2, ys') := transform_document composite d1 ys in (d2, (xs' ++ ys')%list)).
Proof. exact composite_app. Qed.
Print Assumptions C18_composite_sequential.
Example C18_example :
  pl_apply (pl_when (pl_transform_text pl_new (fun s => s ++ lit "1")%list) true
             (fun q => pl_transform_text q (fun s => s ++ lit "2")%list)) (Document [BParagraph [IText (lit "x")]])
  = Document [BParagraph [IText (lit "x12")]].
Proof. vm_compute. reflexivity. Qed.

(** C19 *)
Theorem C19_default_expansion : forall S d (s : S), expand_document (default_transformer S) d s = ([d], s).
Proof. exact default_expand_document. Qed.
Print Assumptions C19_default_expansion.
Example C19_example : expand_document (default_transformer nat) sample 3 = ([sample], 3).
Proof. vm_compute. reflexivity. Qed.

(** C20, where it holds: top-level blocks, quotes, footnotes, alerts. *)
Theorem C20_expansion_splices_partial : forall S (f : inline -> list inline) d (s : S),
  expand_document (with_walk_expand_inline (fun i _ => ret (f i)) (default_transformer S)) d s
  = ([Document (map (splice_block f) (d_blocks d))], s).
Proof. exact @expand_document_splice. Qed.
Print Assumptions C20_expansion_splices_partial.
Theorem C20_block_expansion_splices_partial : forall S (f : block -> option (list block)) d (s : S),
  expand_document (with_walk_expand_block (fun b w => match f b with Some l => ret l | None => w end)
                     (default_transformer S)) d s
  = ([Document (flat_map (splice_blocks f) (d_blocks d))], s).
Proof. exact @expand_document_splices. Qed.
Print Assumptions C20_block_expansion_splices_partial.
Example C20_example : let f i := match i with ICode s => [IText (lit "<"); ICode s; IText (lit ">")] | i => [i] end in
  expand_document (with_walk_expand_inline (fun i _ => ret (f i)) (default_transformer nat)) (Document [BBlockQuote [BParagraph [IText (lit "a"); ICode (lit "b")]]; BThematicBreak]) 3
  = ([Document [BBlockQuote [BParagraph [IText (lit "a"); IText (lit "<"); ICode (lit "b"); IText (lit ">")]]; BThematicBreak]], 3).
Proof. vm_compute. reflexivity. Qed.
(** ... and where it fails: inside list items and table cells an overridden
    inline expansion is not applied. *)
Theorem C20_lists_and_tables_not_expanded_refuted :
  exists (f : inline -> list inline) (c : list inline),
    let t := with_walk_expand_inline (fun i _ => ret (f i)) (default_transformer unit) in
    flat_map f c <> c /\
    run (expand_document t (Document [BParagraph c])) = [Document [BParagraph (flat_map f c)]] /\
    run (expand_document t (Document [BList (MkList (Bullet Dash) [ListItem None [BParagraph c]])]))
      = [Document [BList (MkList (Bullet Dash) [ListItem None [BParagraph c]])]] /\
    run (expand_document t (Document [BTable (Table [[c]] [ANone])])) = [Document [BTable (Table [[c]] [ANone])]].
Proof. exact expansion_refuted. Qed.
Print Assumptions C20_lists_and_tables_not_expanded_refuted.

(** C21 *)
Theorem C21_default_generic_transformer : forall S T (d : gdocument T) (s : S),
  gtransform_document (default_gtransformer S T) d s = (d, s).
Proof. exact @g_document. Qed.
Print Assumptions C21_default_generic_transformer.
Theorem C21_default_generic_expansion : forall S T (d : gdocument T) (s : S),
  gexpand_document (default_gtransformer S T) d s = ([d], s).
Proof. exact @gx_document. Qed.
Print Assumptions C21_default_generic_expansion.
Example C21_example : gtransform_document (default_gtransformer nat N) (with_data 0%N sample 7%N) 3 = (with_data 0%N sample 7%N, 3) /\
  gexpand_document (default_gtransformer nat N) (with_data 0%N sample 7%N) 3 = ([with_data 0%N sample 7%N], 3).
Proof. vm_compute. auto. Qed.
