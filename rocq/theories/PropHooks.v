(** Properties C87-C90: overridden methods of [Transformer] and
    [GenericTransformer].  Specification: SpecHooks.v ([rebuild_document],
    [gevents_document], [grebuild_document], [replace_document]; the trait
    implementations [noting_transformer], [noting_gtransformer], [replacing])
    and SpecTransform.v ([events_document]). *)
From Coq Require Import String List.
From Verif Require Import HookFacts EntryFacts Sample.
Import ListNotations.
Open Scope list_scope.

(** C87: whatever the overridden methods make of their nodes, each is called for
    every node of its kind, once, in document order, with the node as it stood in
    the document given. *)
Theorem C87_methods_called : forall f d seen,
  snd (transform_document (noting_transformer f) d seen) = seen ++ events_document d.
Proof. intros. now rewrite note_document. Qed.
Print Assumptions C87_methods_called.
Theorem C87_generic_methods_called : forall T (f : grebuilders T) d seen,
  snd (gtransform_document (noting_gtransformer f) d seen) = seen ++ gevents_document d.
Proof. intros. now rewrite gnote_document. Qed.
Print Assumptions C87_generic_methods_called.
(** a block or an inline given alone *)
Theorem C87_parts : forall f T (g : grebuilders T) seen gseen,
  (forall b, snd (transform_block (noting_transformer f) b seen) = seen ++ events_block b) /\
  (forall i, snd (transform_inline (noting_transformer f) i seen) = seen ++ events_inline i) /\
  (forall b, snd (gtransform_block (noting_gtransformer g) b gseen) = gseen ++ gevents_block b) /\
  (forall i, snd (gtransform_inline (noting_gtransformer g) i gseen) = gseen ++ gevents_inline i).
Proof. intros. repeat split; intros; now rewrite ?note_block, ?note_inline, ?gnote_block, ?gnote_inline. Qed.
Print Assumptions C87_parts.
(** The two traits (and, by C08, the visitor) go through a document alike; only
    the generic trait has no method for texts. *)
Theorem C87_traits_agree : forall T (d : gdocument T),
  map strip_event (gevents_document d) = filter (fun e => negb (is_text e)) (events_document (strip_data d)).
Proof. intros. apply strip_events. Qed.
Print Assumptions C87_traits_agree.
Example C87_example : exists f,
  List.length (snd (transform_document (noting_transformer f) sample [])) = 74
  /\ fst (transform_document (noting_transformer f) sample []) <> sample.
Proof.
  exists (Rebuilders (fun _ d => d) (fun _ _ => BEmpty) (fun _ i => i) (fun _ c => c) (fun _ i => i) (fun _ r => r)
            (fun _ h => h) (fun _ l => l) (fun _ i => i) (fun _ c => c) (fun _ x => x) (fun _ x => x) (fun _ x => x)).
  split; [vm_compute; reflexivity|intros H; apply (f_equal (fun d => hd BEmpty (d_blocks d))) in H; discriminate H].
Qed.

(** C88: methods that do their default work first and then apply a function
    rebuild the document bottom-up; everything they do not touch is kept. *)
Theorem C88_rebuilt : forall f d seen,
  fst (transform_document (noting_transformer f) d seen) = rebuild_document f d.
Proof. intros. now rewrite note_document. Qed.
Print Assumptions C88_rebuilt.
Theorem C88_generic_rebuilt : forall T (f : grebuilders T) d seen,
  fst (gtransform_document (noting_gtransformer f) d seen) = grebuild_document f d.
Proof. intros. now rewrite gnote_document. Qed.
Print Assumptions C88_generic_rebuilt.
Theorem C88_parts : forall f T (g : grebuilders T) seen gseen,
  (forall b, fst (transform_block (noting_transformer f) b seen) = rebuild_block f b) /\
  (forall i, fst (transform_inline (noting_transformer f) i seen) = rebuild_inline f i) /\
  (forall b, fst (gtransform_block (noting_gtransformer g) b gseen) = grebuild_block g b) /\
  (forall i, fst (gtransform_inline (noting_gtransformer g) i gseen) = grebuild_inline g i).
Proof. intros. repeat split; intros; now rewrite ?note_block, ?note_inline, ?gnote_block, ?gnote_inline. Qed.
Print Assumptions C88_parts.
Example C88_example :
  rebuild_document (Rebuilders (fun _ d => d) (fun _ b => b) (fun _ i => i) (fun _ c => c) (fun _ i => i) (fun _ r => r)
      (fun _ h => h) (fun old new => Link (link_destination old) None (link_children new)) (fun _ i => i) (fun _ c => c)
      (fun _ x => x ++ lit "!") (fun _ x => x) (fun _ x => x))
    (Document [BParagraph [ILink (Link (lit "u") (Some (lit "t")) [IText (lit "a")]); IText (lit "b")]])
  = Document [BParagraph [ILink (Link (lit "u") None [IText (lit "a!")]); IText (lit "b!")]].
Proof. vm_compute. reflexivity. Qed.

(** C89: expansion of trees with user data, where it works: the replaced nodes
    are spliced in, at top level and in quotes; links and images in paragraphs and
    definition labels, also inside emphasis. *)
Theorem C89_generic_expansion_partial : forall S T (f : replacers T) d (s : S),
  gexpand_document (replacing f) d s = ([replace_document f d], s).
Proof. intros. apply replace_document_eq. Qed.
Print Assumptions C89_generic_expansion_partial.
Example C89_example : let f := Replacers (T := N) (fun b => match b with GBThematicBreak _ => Some [] | _ => None end) (fun _ => None) (fun h => [h; h])
    (fun l => [l]) (fun i => [i]) (fun c => [c]) (fun i => [i]) (fun r => [r]) (fun n => [n]) (fun a => [a]) in let h := GHeading (Atx 1%N) [GIText (lit "a") 1%N] 2%N in
  gexpand_document (replacing f) (GDocument [GBHeading h; GBBlockQuote [GBThematicBreak 3%N; GBHeading h] 4%N] 5%N) 0
  = ([GDocument [GBHeading h; GBHeading h; GBBlockQuote [GBHeading h; GBHeading h] 4%N] 5%N], 0).
Proof. vm_compute. reflexivity. Qed.
(** ... and where it does not.  [expand_document], [expand_block],
    [expand_inline] and [expand_table_cell] are never consulted, whatever they are: *)
Theorem C89_generic_never_consulted_refuted : forall S T fd fc fb fi (t : gtransformer S T) d s,
  gexpand_document (override_uncalled fd fc fb fi t) d s = gexpand_document t d s.
Proof. reflexivity. Qed.
Print Assumptions C89_generic_never_consulted_refuted.
(** so that the module's own example, an [expand_block] splitting long
    paragraphs, does nothing: *)
Definition split_paragraph (b : gblock nat) : list (gblock nat) :=
  match b with
  | GBParagraph c u =>
      if Nat.ltb 5 (List.length c)
      then [GBParagraph (firstn (Nat.div (List.length c) 2) c) 0; GBParagraph (skipn (Nat.div (List.length c) 2) c) 1]
      else [b]
  | _ => [b]
  end.
Theorem C89_documented_example_refuted : exists d,
  flat_map split_paragraph (gd_blocks d) <> gd_blocks d /\
  gexpand_document (override_uncalled (fun _ w => w) (fun _ w => w) (fun b _ => ret (split_paragraph b)) (fun _ w => w)
    (default_gtransformer unit nat)) d tt = ([d], tt).
Proof.
  exists (GDocument [GBParagraph (repeat (GIEmpty 7) 6) 7] 7). split; [discriminate|vm_compute; reflexivity].
Qed.
Print Assumptions C89_documented_example_refuted.
(** In list items, headings and links nothing is expanded: *)
Theorem C89_generic_not_everywhere_refuted :
  let f := Replacers (fun _ => None) (fun _ => None) (fun h => [h]) (fun l => [l]) (fun _ => []) (fun _ => [])
             (fun i => [i]) (fun r => [r]) (fun d => [d]) (fun a => [a]) in
  let code := GBCodeBlock (GCodeBlock Indented [] 0) in
  let pic := GIImage (GImage [] None [] 0) in
  let run d := fst (gexpand_document (replacing f) d tt) in
  run (GDocument [code; GBParagraph [pic] 0] 0) = [GDocument [GBParagraph [] 0] 0] /\
  (forall k t, let d := GDocument [GBList (GMkList k [GListItem t [code; GBParagraph [pic] 0] 0] 0)] 0 in run d = [d]) /\
  (forall k, let d := GDocument [GBHeading (GHeading k [pic] 0)] 0 in run d = [d]) /\
  (forall u t, let d := GDocument [GBParagraph [GILink (GLink u t [pic] 0)] 0] 0 in run d = [d]).
Proof. repeat split. Qed.
Print Assumptions C89_generic_not_everywhere_refuted.
(** The plain trait: eleven of its thirteen [expand_*] methods are never consulted. *)
Theorem C89_never_consulted_refuted : forall S (e : expanders S) (t : transformer S) d s,
  expand_document (with_expanders e t) d s = expand_document t d s.
Proof. reflexivity. Qed.
Print Assumptions C89_never_consulted_refuted.
Theorem C89_inline_expansion_refuted : exists (f : inline -> list inline) d,
  (forall i, In i (doc_inlines d) -> f i <> [i]) /\ doc_inlines d <> [] /\
  expand_document (with_expanders (Expanders (fun _ w => w) (fun i _ => ret (f i)) (fun _ w => w) (fun _ w => w) (fun _ w => w)
      (fun _ w => w) (fun _ w => w) (fun _ w => w) (fun _ w => w) (fun _ w => w) (fun _ w => w)) (default_transformer unit)) d tt
  = ([d], tt).
Proof.
  exists (fun i => [i; i]), (Document [BParagraph [IText (lit "a"); ICode (lit "b")]]).
  repeat split; [intros i _ H; discriminate H|discriminate].
Qed.
Print Assumptions C89_inline_expansion_refuted.

(** C90: without overridden expansion methods, [expand_with] gives the document
    [transform_with] gives.  For the plain trait this holds if only the methods
    for inlines, table cells, links, images, code blocks and texts are overridden: *)
Theorem C90_inline_methods_partial : forall S fi fc fl fim fcb ft (e : expanders S) d s,
  let t := Transformer (fun _ w => w) (fun _ w => w) fi fc (fun _ w => w) (fun _ w => w) (fun _ w => w)
             fl fim fcb ft (fun _ w => w) (fun _ w => w) (fun _ w => w) (fun _ w => w) (fun _ w => w) (fun _ w => w) e in
  expand_document t d s = (let '(d', s') := transform_document t d s in ([d'], s')).
Proof. intros. now apply xp_document. Qed.
Print Assumptions C90_inline_methods_partial.
(** ... and for the generic trait if those for documents, blocks and inlines are not: *)
Theorem C90_generic_methods_partial : forall S T fc fit fr fh fl fim fcb ff fa xd xc xb xi d (s : S),
  let t := GTransformer (T := T) (fun _ w => w) (fun _ w => w) (fun _ w => w) fc fit fr fh fl fim fcb ff fa
             xd xc xb xi (fun _ w => w) (fun _ w => w) (fun _ w => w) (fun _ w => w) (fun _ w => w) (fun _ w => w)
             (fun _ w => w) (fun _ w => w) (fun _ w => w) (fun _ w => w) in
  gexpand_document t d s = (let '(d', s') := gtransform_document t d s in ([d'], s')).
Proof. intros. now apply xg_document. Qed.
Print Assumptions C90_generic_methods_partial.
Example C90_example : let t := Transformer (S := nat) (fun _ w => w) (fun _ w => w) (fun _ w _ => w) (fun _ w => w) (fun _ w => w) (fun _ w => w) (fun _ w => w)
    (fun _ w => w) (fun _ w => w) (fun _ w => w) (fun x _ n => (x ++ lit "!", S n)) (fun _ w => w) (fun _ w => w) (fun _ w => w) (fun _ w => w) (fun _ w => w) (fun _ w => w) (default_expanders nat) in
  expand_document t (Document [BParagraph [IText (lit "a"); IEmphasis [IText (lit "b")]]]) 0 = ([Document [BParagraph [IText (lit "a!"); IEmphasis [IText (lit "b!")]]]], 2).
Proof. vm_compute. reflexivity. Qed.
(** It fails for overridden [transform_block], [transform_document],
    [transform_heading] ... *)
Theorem C90_block_methods_refuted :
  (exists (t : transformer unit) d, t = with_block (fun _ _ => ret BEmpty) (default_transformer unit) /\
     transform_document t d tt = (Document [BEmpty], tt) /\ expand_document t d tt = ([d], tt) /\ d <> Document [BEmpty]) /\
  (exists (t : transformer unit) d, t = with_document (fun _ _ => ret (Document [])) (default_transformer unit) /\
     transform_document t d tt = (Document [], tt) /\ expand_document t d tt = ([d], tt) /\ d <> Document []) /\
  (exists (h h' : heading), h <> h' /\
     let t := Transformer (fun _ w => w) (fun _ w => w) (fun _ w _ => w) (fun _ w => w) (fun _ w => w) (fun _ w => w)
                (fun _ _ => ret h') (fun _ w => w) (fun _ w => w) (fun _ w => w) (fun _ w => w) (fun _ w => w)
                (fun _ w => w) (fun _ w => w) (fun _ w => w) (fun _ w => w) (fun _ w => w) (default_expanders unit) in
     transform_document t (Document [BHeading h]) tt = (Document [BHeading h'], tt) /\
     expand_document t (Document [BHeading h]) tt = ([Document [BHeading h]], tt)).
Proof.
  split; [|split].
  - eexists _, (Document [BParagraph []]). repeat split. discriminate.
  - eexists _, (Document [BParagraph []]). repeat split. discriminate.
  - exists (Heading (Atx 1) []), (Heading (Atx 2) []). repeat split. discriminate.
Qed.
Print Assumptions C90_block_methods_refuted.
(** ... and, in the generic trait, for [transform_inline]. *)
Theorem C90_generic_inline_method_refuted :
  let t := GTransformer (S := unit) (T := unit) (fun _ w => w) (fun _ w => w) (fun _ _ => ret (GIEmpty tt)) (fun _ w => w) (fun _ w => w)
    (fun _ w => w) (fun _ w => w) (fun _ w => w) (fun _ w => w) (fun _ w => w) (fun _ w => w)
    (fun _ w => w) (fun _ w => w) (fun _ w => w) (fun _ w => w) (fun _ w => w) (fun _ w => w)
    (fun _ w => w) (fun _ w => w) (fun _ w => w) (fun _ w => w) (fun _ w => w) (fun _ w => w)
    (fun _ w => w) (fun _ w => w) (fun _ w => w) in
  let d i := GDocument [GBParagraph [i] tt] tt in
  forall s, gtransform_document t (d (GIText s tt)) tt = (d (GIEmpty tt), tt) /\
            gexpand_document t (d (GIText s tt)) tt = ([d (GIText s tt)], tt).
Proof. intros. split; reflexivity. Qed.
Print Assumptions C90_generic_inline_method_refuted.

(** C19 and C21 for the methods that only run when called directly: at their
    defaults every [expand_*] method and every walk gives back its argument alone. *)
Theorem C19_default_entry_points : forall S (s : S), let t := default_transformer S in
  (forall x, call_expand_document t x s = ([x], s)) /\ (forall x, expand_block t x s = ([x], s)) /\
  (forall x, call_expand_inline t x s = ([x], s)) /\ (forall x, expand_table_cell t x s = ([x], s)) /\
  (forall x, call_expand_list_item t x s = ([x], s)) /\ (forall x, call_expand_table_row t x s = ([x], s)) /\
  (forall x, call_expand_heading t x s = ([x], s)) /\ (forall x, call_expand_link t x s = ([x], s)) /\
  (forall x, call_expand_image t x s = ([x], s)) /\ (forall x, call_expand_code_block t x s = ([x], s)) /\
  (forall x, call_expand_text t x s = ([x], s)) /\ (forall x, call_expand_footnote_definition t x s = ([x], s)) /\
  (forall x, call_expand_github_alert t x s = ([x], s)) /\
  (forall x, walk_expand_table_cell t x s = ([x], s)) /\ (forall x, walk_expand_heading t x s = ([x], s)) /\
  (forall x, walk_expand_link t x s = ([x], s)) /\ (forall x, walk_expand_image x s = ([x], s)) /\
  (forall x, walk_expand_code_block x s = ([x], s)) /\ (forall x, walk_expand_text x s = ([x], s)) /\
  (forall x, walk_expand_footnote_definition t x s = ([x], s)) /\ (forall x, walk_expand_github_alert t x s = ([x], s)).
Proof. intros S s. pose proof (plain_entries (S := S)) as H. unfold singleton_on in H. cbv zeta. intuition. Qed.
Print Assumptions C19_default_entry_points.
Theorem C21_default_generic_entry_points : forall S T (s : S), let t := default_gtransformer S T in
  (forall x, gcall_expand_document t x s = ([x], s)) /\ (forall x, gcall_expand_block t x s = ([x], s)) /\
  (forall x, gcall_expand_inline t x s = ([x], s)) /\ (forall x, gcall_expand_table_cell t x s = ([x], s)).
Proof. intros S T s. pose proof (generic_entries (S := S) (T := T)) as H. unfold singleton_on in H. cbv zeta. intuition. Qed.
Print Assumptions C21_default_generic_entry_points.
