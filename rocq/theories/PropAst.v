(** Properties C01-C04: user data and element ids.  Specifications used:
    [data_document] (SpecAst.v: the data of all nodes in post-order),
    [strip_data] is the API's own operation, [call_all] (SpecAst.v: call a
    closure on each element of a list, left to right), [count_up] (the list
    start, start+1, ...). *)
From Verif Require Import GenericFacts SpecAst Sample.

Theorem C01_with_data_strip_data : forall (T : Type) (dflt : T) (d : document) (v : T),
  strip_data (with_data dflt d v) = d.
Proof. exact @strip_with. Qed.
Print Assumptions C01_with_data_strip_data.
Theorem C01_with_data_strip_block : forall (T : Type) (dflt : T) (b : block) (v : T),
  strip_block (with_data_block dflt b v) = b.
Proof. exact @strip_with_block. Qed.
Print Assumptions C01_with_data_strip_block.
Theorem C01_with_data_strip_inline : forall (T : Type) (dflt : T) (i : inline) (v : T),
  strip_inline (with_data_inline dflt i v) = i.
Proof. exact @strip_with_inline. Qed.
Print Assumptions C01_with_data_strip_inline.
Theorem C01_generic_roundtrip : forall d : document, from_generic (to_generic d) = d.
Proof. exact (fun d => strip_with tt d tt). Qed.
Print Assumptions C01_generic_roundtrip.
Theorem C01_generic_roundtrip_back : forall d : gdocument unit, to_generic (from_generic d) = d.
Proof. exact to_from_generic. Qed.
Print Assumptions C01_generic_roundtrip_back.
Example C01_example : data_document (with_data 0%N sample 7%N) = repeat 0%N 46 ++ [7%N] /\ strip_data (with_data 0%N sample 7%N) = sample /\
  with_data 0%N sample 7%N <> with_data 0%N sample 8%N.
Proof. split; [vm_compute; reflexivity|]. split; [vm_compute; reflexivity|]. vm_compute. congruence. Qed.

(** C02: same document underneath, each datum replaced by its image. *)
Theorem C02_map_user_data : forall (T U : Type) (f : T -> U) (d : gdocument T),
  exists d', map_user_data f d = Some d' /\ strip_data d' = strip_data d
             /\ data_document d' = map f (data_document d).
Proof. exact @map_user_data_spec. Qed.
Print Assumptions C02_map_user_data.
(** Content and data listing determine a document with data, so C02 pins the result down. *)
Theorem C02_content_and_data_determine : forall (T : Type) (a b : gdocument T),
  strip_data a = strip_data b -> data_document a = data_document b -> a = b.
Proof. exact @shape_and_data_determine. Qed.
Print Assumptions C02_content_and_data_determine.
Theorem C02_map_user_data_id : forall (T : Type) (d : gdocument T), map_user_data (fun x => x) d = Some d.
Proof. exact @map_user_data_id. Qed.
Print Assumptions C02_map_user_data_id.
Theorem C02_map_user_data_comp : forall (T U V : Type) (f : T -> U) (g : U -> V) (d : gdocument T),
  match map_user_data f d with Some d1 => map_user_data g d1 | None => None end
  = map_user_data (fun x => g (f x)) d.
Proof. exact @map_user_data_comp. Qed.
Print Assumptions C02_map_user_data_comp.
Example C02_example : exists d a b, add_ids_from sample 10 = Some d /\ map_user_data (N.add 1) d = Some a /\ add_ids_from sample 11 = Some b /\ a = b /\ a <> d.
Proof. do 3 eexists. split; [vm_compute; reflexivity|]. split; [vm_compute; reflexivity|]. split; [vm_compute; reflexivity|]. split; [reflexivity|vm_compute; discriminate]. Qed.

(** C03: for every stateful closure (which may also panic, [None]) the mapper
    behaves as calling the closure once on each datum in post-order; the
    results land in the same positions and the content is unchanged. *)
Theorem C03_map_user_data_order : forall (S T U : Type) (f : T -> PM S U) (d : gdocument T) (s : S),
  match md_document f d s with
  | Some (d', s') => call_all f (data_document d) s = Some (data_document d', s')
                     /\ strip_data d' = strip_data d
  | None => call_all f (data_document d) s = None
  end.
Proof. exact @md_document_visits. Qed.
Print Assumptions C03_map_user_data_order.
(** The listing has one entry for the document, every block, every list item and every inline. *)
Theorem C03_one_datum_per_node : forall (T : Type) (dflt : T) (d : document) (v : T),
  length (data_document (with_data dflt d v)) =
  1 + length (doc_blocks d) + list_sum (map list_item_count (doc_blocks d)) + length (doc_inlines d).
Proof. exact @document_data_length. Qed.
Print Assumptions C03_one_datum_per_node.
(** a closure with a counter that fails at 12: the call sequence stops there *)
Example C03_example : let f (limit : N) := fun (x : N) (n : N) => if (n <? limit)%N then Some ((x + n)%N, (n + 1)%N) else None in
  md_document (f 12%N) (with_data 0%N sample 5%N) 0%N = None /\
  (exists d, md_document (f 100%N) (with_data 0%N sample 5%N) 0%N = Some (d, 47%N) /\ data_document d = count_up 0 46 ++ [51%N]).
Proof. split; [vm_compute; reflexivity|]. eexists. split; vm_compute; reflexivity. Qed.

(** C04 *)
Theorem C04_add_ids : forall (doc : document) (start : N),
  let n := 1 + length (doc_blocks doc) + list_sum (map list_item_count (doc_blocks doc)) + length (doc_inlines doc) in
  if (start + N.of_nat n <=? u64_max)%N
  then exists d', add_ids_from doc start = Some d' /\ strip_data d' = doc
                  /\ data_document d' = count_up start n
  else add_ids_from doc start = None.
Proof. exact add_ids_from_nodes. Qed.
Print Assumptions C04_add_ids.
Theorem C04_add_ids_to_document : forall doc : document,
  let n := 1 + length (doc_blocks doc) + list_sum (map list_item_count (doc_blocks doc)) + length (doc_inlines doc) in
  if (1 + N.of_nat n <=? u64_max)%N
  then exists d', add_ids_to_document doc = Some d' /\ strip_data d' = doc /\ data_document d' = count_up 1 n
  else add_ids_to_document doc = None.
Proof. intros doc. exact (add_ids_from_nodes doc 1). Qed.
Print Assumptions C04_add_ids_to_document.
Theorem C04_add_ids_generic : forall (T : Type) (doc : gdocument T),
  let n := length (data_document doc) in
  if (1 + N.of_nat n <=? u64_max)%N
  then exists d', add_ids_to_generic_document doc = Some d' /\ strip_data d' = strip_data doc
                  /\ data_document d' = count_up 1 n
  else add_ids_to_generic_document doc = None.
Proof. exact @add_ids_generic_spec. Qed.
Print Assumptions C04_add_ids_generic.
Theorem C04_ids_distinct : forall start n, NoDup (count_up start n).
Proof. exact count_up_NoDup. Qed.
Print Assumptions C04_ids_distinct.
Theorem C04_ids_range : forall start n x, In x (count_up start n) <-> (start <= x < start + N.of_nat n)%N.
Proof. exact count_up_bounds. Qed.
Print Assumptions C04_ids_range.

Example C04_example : option_map (@data_document N) (add_ids_from sample 10)
  = Some (count_up 10 47).
Proof. vm_compute. reflexivity. Qed.
Example C04_overflow_example : add_ids_from sample 18446744073709551610%N = None.
Proof. vm_compute. reflexivity. Qed.

(** C98: [with_data] gives the datum to the node itself and the default to every
    node inside of it. *)
Section Placed.
  Context {T : Type} (dflt : T).
  Local Notation below l := (Forall (eq dflt) l).
  Lemma below_flat : forall A (f : A -> list T) l, Forall (fun x => below (f x)) l -> below (flat_map f l).
  Proof. induction 1; cbn; [constructor|]. apply Forall_app. now split. Qed.
  Lemma below_all : forall A (f : A -> list T) l, (forall x, In x l -> exists k, f x = k ++ [dflt] /\ below k) -> below (flat_map f l).
  Proof. intros A f l H. apply below_flat. apply Forall_forall. intros x I. destruct (H x I) as (k & -> & K). apply Forall_app. split; [exact K|now constructor]. Qed.
  Lemma placed_inline : forall i v, exists l, data_inline (with_data_inline dflt i v) = l ++ [v] /\ below l.
  Proof.
    assert (L : forall c, Forall (fun i => forall v, exists l, data_inline (with_data_inline dflt i v) = l ++ [v] /\ below l) c ->
      below (flat_map data_inline (map (fun x => with_data_inline dflt x dflt) c))).
    { intros c H. apply below_all. intros x I. apply in_map_iff in I as (y & <- & I). rewrite Forall_forall in H. exact (H y I dflt). }
    induction i using inline_ind'; intros v; cbn [with_data_inline data_inline gl_children gl_data glr_label glr_text glr_data gi_data link_children lr_label lr_text];
      try (eexists; split; [reflexivity|now apply L]); try (exists []; split; [reflexivity|constructor]).
    eexists. split; [rewrite app_assoc; reflexivity|]. apply Forall_app. split; now apply L.
  Qed.
  Lemma placed_inlines : forall c, below (flat_map data_inline (with_data_inlines dflt c)).
  Proof. intros c. apply below_all. intros x I. apply in_map_iff in I as (y & <- & I). apply placed_inline. Qed.
  Lemma placed_block : forall b v, exists l, data_block (with_data_block dflt b v) = l ++ [v] /\ below l.
  Proof.
    assert (L : forall c, Forall (fun b => forall v, exists l, data_block (with_data_block dflt b v) = l ++ [v] /\ below l) c ->
      below (flat_map data_block (map (fun x => with_data_block dflt x dflt) c))).
    { intros c H. apply below_all. intros x I. apply in_map_iff in I as (y & <- & I). rewrite Forall_forall in H. exact (H y I dflt). }
    induction b using block_ind'; intros v;
      cbn [with_data_block data_block gh_content gh_data gld_label gld_data gli_blocks gli_data gll_items gll_data l_items gfd_blocks gfd_data gga_blocks gga_data fd_blocks ga_blocks gt_rows gt_data t_rows gcb_data h_content ld_label];
      try (eexists; split; [reflexivity|first [now apply L|apply placed_inlines]]); try (exists []; split; [reflexivity|constructor]).
    - eexists. split; [reflexivity|]. apply below_flat. apply Forall_map. eapply Forall_impl; [|eassumption]. intros it Hi. cbn [gli_blocks gli_data]. apply Forall_app. split; [now apply L|now constructor].
    - eexists. split; [reflexivity|]. apply below_flat. apply Forall_map. apply Forall_forall. intros r _. apply below_flat. apply Forall_map. apply Forall_forall. intros c _. apply placed_inlines.
  Qed.
End Placed.
Theorem C98_data_placed : forall (T : Type) (dflt v : T) (d : document) (b : block) (i : inline),
  (exists l, data_document (with_data dflt d v) = l ++ [v] /\ Forall (eq dflt) l) /\
  (exists l, data_block (with_data_block dflt b v) = l ++ [v] /\ Forall (eq dflt) l) /\
  (exists l, data_inline (with_data_inline dflt i v) = l ++ [v] /\ Forall (eq dflt) l).
Proof.
  intros T dflt v d b i. split; [|split; [apply placed_block|apply placed_inline]].
  eexists. split; [reflexivity|]. cbn [gd_blocks with_data]. apply below_all. intros x I. apply in_map_iff in I as (y & <- & I). apply placed_block.
Qed.
Print Assumptions C98_data_placed.
(** ... so [with_default_data] gives the default to all of them, *)
Theorem C98_default_data : forall (T : Type) (dflt : T) (d : document), Forall (eq dflt) (data_document (with_default_data dflt d)).
Proof. intros T dflt d. destruct (C98_data_placed T dflt dflt d BEmpty IEmpty) as ((l & E & H) & _). unfold with_default_data. rewrite E. apply Forall_app. split; [exact H|now constructor]. Qed.
Print Assumptions C98_default_data.
(** and a datum is not spread over the tree. *)
Theorem C98_spread_refuted : exists (d : document) (v : N), ~ Forall (eq v) (data_document (with_data 0%N d v)).
Proof. exists sample, 7%N. intro H. vm_compute in H. inversion H. discriminate. Qed.
Print Assumptions C98_spread_refuted.
Example C98_example : data_block (with_data_block 0%N (BBlockQuote [BParagraph [IEmphasis [IText [97%N]]]]) 9%N) = [0; 0; 0; 9]%N.
Proof. reflexivity. Qed.
