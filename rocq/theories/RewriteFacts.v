From Verif Require Export TransformFacts.

(** ** Transformers act as pointwise rewriting *)
Lemma mapM_pure {S A B} (m : A -> M S B) (g : A -> B) l :
  Forall (fun x => forall s, m x s = (g x, s)) l -> forall s, mapM m l s = (map g l, s).
Proof.
  induction 1 as [|x l Hx _ IH]; intros s; cbn; [reflexivity|].
  unfold bind, ret. now rewrite Hx, IH.
Qed.
Lemma flat_mapM_pure {S A B} (m : A -> M S (list B)) (g : A -> list B) l :
  Forall (fun x => forall s, m x s = (g x, s)) l -> forall s, flat_mapM m l s = (flat_map g l, s).
Proof.
  induction 1 as [|x l Hx _ IH]; intros s; cbn; [reflexivity|].
  unfold bind, ret. now rewrite Hx, IH.
Qed.

Section Pointwise.
  Context {S : Type} (t : transformer S).
  Variables (leaf : inline -> inline) (url html : str -> str).

  (** The inline method of [t] rewrites leaves by [leaf] and link
      destinations by [url], and otherwise walks. *)
  Definition inline_ok : Prop :=
    forall i (w : M S inline) (kids : M S (list inline)) s,
    match i with
    | IEmphasis _ | IStrong _ | IStrikethrough _ | ILinkReference _ => tr_inline t i w kids s = w s
    | ILink l =>
        (forall c, kids s = (c, s) -> w s = (ILink (Link (link_destination l) (link_title l) c), s) ->
             tr_inline t i w kids s = (ILink (Link (url (link_destination l)) (link_title l) c), s))
    | _ => w s = (i, s) -> tr_inline t i w kids s = (leaf i, s)
    end.
  Definition block_ok : Prop :=
    forall b (w : M S block) s,
    match b with
    | BHtmlBlock h => w s = (b, s) -> tr_block t b w s = (BHtmlBlock (html h), s)
    | _ => tr_block t b w s = w s
    end.
  Definition others_default : Prop :=
    (forall x w, tr_document t x w = w) /\ (forall x w, tr_table_cell t x w = w) /\
    (forall x w, tr_list_item t x w = w) /\ (forall x w, tr_table_row t x w = w) /\
    (forall x w, tr_heading t x w = w) /\ (forall x w, tr_link t x w = w) /\
    (forall x w, tr_image t x w = w) /\ (forall x w, tr_code_block t x w = w) /\
    (forall x w, tr_text t x w = w) /\ (forall x w, tr_footnote_definition t x w = w) /\
    (forall x w, tr_github_alert t x w = w).
  Hypothesis Hi : inline_ok.
  Hypothesis Hb : block_ok.
  Hypothesis Ho : others_default.
  Local Notation RI := (rewrite_inline leaf url).
  Local Notation RB := (rewrite_block leaf url html).

  Lemma tr_inline_pointwise i : forall s, transform_inline t i s = (RI i, s).
  Proof.
    destruct Ho as (_ & _ & _ & _ & _ & Hl & Him & _ & Ht & _ & _).
    induction i using inline_ind'; intros st;
      match goal with
      | |- transform_inline t ?i _ = _ => cbn [transform_inline];
          match goal with |- tr_inline t ?i ?w ?k ?s = _ =>
            pose proof (Hi i w k s) as HH; cbv beta iota in HH end end;
      try (apply HH; rewrite ?Ht, ?Him; reflexivity);
      try (rewrite HH; unfold bind, ret; rewrite (mapM_pure _ RI) by assumption; reflexivity).
    - apply HH.
      + now rewrite (mapM_pure _ RI) by assumption.
      + cbn. rewrite Hl. unfold bind, ret. now rewrite (mapM_pure _ RI) by assumption.
    - rewrite HH. cbn. unfold bind, ret. now rewrite !(mapM_pure _ RI) by assumption.
  Qed.
  Lemma tr_inlines_pointwise l : forall s, mapM (transform_inline t) l s = (map RI l, s).
  Proof. apply mapM_pure, Forall_all, tr_inline_pointwise. Qed.

  Lemma tr_block_pointwise b : forall s, transform_block t b s = (RB b, s).
  Proof.
    destruct Ho as (_ & Hc & Hit & Hr & Hh & _ & _ & Hcb & _ & Hf & Ha).
    induction b using block_ind'; intros st;
      match goal with
      | |- transform_block t ?i _ = _ => cbn [transform_block];
          match goal with |- tr_block t ?i ?w ?s = _ =>
            pose proof (Hb i w s) as HH; cbv beta iota in HH end end.
    - rewrite HH. unfold bind, ret. now rewrite tr_inlines_pointwise.
    - rewrite HH. unfold transform_heading. rewrite Hh. unfold bind, ret. now rewrite tr_inlines_pointwise.
    - now rewrite HH.
    - rewrite HH. unfold bind, ret. now rewrite (mapM_pure _ RB) by assumption.
    - rewrite HH. unfold bind, ret.
      rewrite (mapM_pure _ (fun it => ListItem (li_task it) (map RB (li_blocks it)))); [reflexivity|].
      eapply Forall_impl; [|exact H]. intros it Hit' s0. rewrite Hit. cbn.
      now rewrite (mapM_pure _ RB) by assumption.
    - rewrite HH, Hcb. reflexivity.
    - now apply HH.
    - rewrite HH. unfold bind, ret. now rewrite tr_inlines_pointwise.
    - rewrite HH. unfold bind, ret. rewrite (mapM_pure _ (map (map RI))); [reflexivity|].
      apply Forall_all. intros row s0. unfold transform_table_row. rewrite Hr.
      apply mapM_pure, Forall_all. intros c s1. unfold transform_table_cell. rewrite Hc.
      apply tr_inlines_pointwise.
    - rewrite HH. cbn. rewrite Hf. unfold bind, ret. now rewrite (mapM_pure _ RB) by assumption.
    - rewrite HH. cbn. rewrite Ha. unfold bind, ret. now rewrite (mapM_pure _ RB) by assumption.
    - now rewrite HH.
  Qed.
  Lemma tr_document_pointwise d s :
    transform_document t d s = (rewrite_document leaf url html d, s).
  Proof.
    unfold transform_document. destruct Ho as (Hd & _). rewrite Hd. unfold bind, ret.
    now rewrite (mapM_pure _ RB) by apply Forall_all, tr_block_pointwise.
  Qed.
End Pointwise.

Ltac others := repeat split; intros; reflexivity.

Lemma rewrite_inline_id i : rewrite_inline (fun x => x) (fun x => x) i = i.
Proof.
  induction i using inline_ind'; cbn; rewrite ?map_id_Forall by assumption; reflexivity.
Qed.
Lemma rewrite_block_id b : rewrite_block (fun x => x) (fun x => x) (fun x => x) b = b.
Proof.
  assert (L : forall l, map (rewrite_inline (fun x => x) (fun x => x)) l = l)
    by (intros l; apply map_id_Forall, Forall_all, rewrite_inline_id).
  induction b using block_ind'; cbn; rewrite ?L, ?map_id_Forall by assumption; try reflexivity.
  - now destruct h.
  - rewrite map_id_Forall; [reflexivity|]. eapply Forall_impl; [|exact H]. intros [tk bs] Hit; cbn in *.
    now rewrite map_id_Forall.
  - now destruct d.
  - destruct t as [rows al]; cbn. do 2 f_equal. apply map_id_Forall, Forall_all. intros row.
    apply map_id_Forall, Forall_all, L.
Qed.
Lemma rewrite_document_id d : rewrite_document (fun x => x) (fun x => x) (fun x => x) d = d.
Proof.
  destruct d as [bs]; unfold rewrite_document; cbn. f_equal. apply map_id_Forall, Forall_all, rewrite_block_id.
Qed.

Lemma default_transform_document S d (s : S) : transform_document (default_transformer S) d s = (d, s).
Proof.
  rewrite (tr_document_pointwise _ (fun x => x) (fun x => x) (fun x => x)).
  - now rewrite rewrite_document_id.
  - intros i w kids s0. destruct i; try (intros H; exact H); try reflexivity.
    intros c _ Hw. exact Hw.
  - intros b w s0. destruct b; try reflexivity. intros H; exact H.
  - others.
Qed.
Lemma default_transform_block S b (s : S) : transform_block (default_transformer S) b s = (b, s).
Proof.
  rewrite (tr_block_pointwise _ (fun x => x) (fun x => x) (fun x => x)).
  - now rewrite rewrite_block_id.
  - intros i w kids s0. destruct i; try (intros H; exact H); try reflexivity.
    intros c _ Hw. exact Hw.
  - intros b' w s0. destruct b'; try reflexivity. intros H; exact H.
  - others.
Qed.
Lemma default_transform_inline S i (s : S) : transform_inline (default_transformer S) i s = (i, s).
Proof.
  rewrite (tr_inline_pointwise _ (fun x => x) (fun x => x)).
  - now rewrite rewrite_inline_id.
  - intros i' w kids s0. destruct i'; try (intros H; exact H); try reflexivity.
    intros c _ Hw. exact Hw.
  - others.
Qed.

Section Conv.
  Variable f : str -> str.
  Ltac fin k :=
    intros d; unfold run;
    rewrite (tr_document_pointwise _ (leaf_of k f) (url_of k f) (html_of k f)); [reflexivity| | |others];
    [ intros i w kids s; destruct i; cbn; unfold bind, ret; intros; try assumption; try reflexivity;
      try (match goal with H : kids _ = _ |- _ => rewrite H; reflexivity end)
    | intros b w s; destruct b; cbn; intros; try assumption; reflexivity ].
  Lemma transform_text_eq : forall d, transform_text f d = map_strings KText f d.
  Proof. unfold transform_text, text_transformer. fin KText. Qed.
  Lemma transform_image_urls_eq : forall d, transform_image_urls f d = map_strings KImageUrl f d.
  Proof. unfold transform_image_urls, image_url_transformer. fin KImageUrl. Qed.
  Lemma transform_link_urls_eq : forall d, transform_link_urls f d = map_strings KLinkUrl f d.
  Proof. unfold transform_link_urls, link_url_transformer. fin KLinkUrl. Qed.
  Lemma transform_autolink_urls_eq : forall d, transform_autolink_urls f d = map_strings KAutolink f d.
  Proof. unfold transform_autolink_urls, autolink_transformer. fin KAutolink. Qed.
  Lemma transform_code_eq : forall d, transform_code f d = map_strings KCode f d.
  Proof. unfold transform_code, code_transformer. fin KCode. Qed.
  Lemma transform_html_eq : forall d, transform_html f d = map_strings KHtml f d.
  Proof. unfold transform_html, html_transformer. fin KHtml. Qed.
End Conv.

Lemma trim_nil_iff s : match trim s with [] => true | _ => false end = forallb is_whitespace s.
Proof.
  unfold trim, trim_start.
  assert (H1 : forall s, forallb is_whitespace s = true -> trim_start_by is_whitespace s = []).
  { induction s0 as [|c s0 IH]; cbn; [reflexivity|]. destruct (is_whitespace c); cbn; [exact IH|discriminate]. }
  assert (H2 : forall s, forallb is_whitespace s = false ->
     exists c r, trim_start_by is_whitespace s = c :: r /\ is_whitespace c = false).
  { induction s0 as [|c s0 IH]; cbn; [discriminate|]. destruct (is_whitespace c) eqn:E; cbn.
    - exact IH. - eauto. }
  assert (H3 : forall c r, is_whitespace c = false -> trim_end (c :: r) <> []).
  { intros c r Hc. unfold trim_end. cbn. destruct (trim_end_by is_whitespace r); [rewrite Hc|]; discriminate. }
  destruct (forallb is_whitespace s) eqn:E.
  - now rewrite H1.
  - destruct (H2 s E) as (c & r & -> & Hc). destruct (trim_end (c :: r)) eqn:E2; [|reflexivity].
    exfalso. now apply (H3 c r Hc).
Qed.

Lemma remove_empty_text_eq d :
  remove_empty_text d = rewrite_document drop_blank (fun u => u) (fun h => h) d.
Proof.
  unfold remove_empty_text, empty_text_remover, run.
  rewrite (tr_document_pointwise _ drop_blank (fun u => u) (fun h => h)); [reflexivity| | |others].
  - intros i w kids s. destruct i; cbn; intros; try assumption; try reflexivity.
    rewrite <- trim_nil_iff. destruct (trim s0); [reflexivity|assumption].
  - intros b w s. destruct b; cbn; intros; try assumption; reflexivity.
Qed.

(** ** Composition of rewritings *)
Lemma map_map_Forall {A} (f g h : A -> A) l :
  Forall (fun x => f (g x) = h x) l -> map f (map g l) = map h l.
Proof. induction 1; cbn; congruence. Qed.

(** leaf rewriting that keeps leaves leaves *)
Definition is_leaf (i : inline) : bool :=
  match i with
  | IEmphasis _ | IStrong _ | IStrikethrough _ | ILink _ | ILinkReference _ => false
  | _ => true
  end.
Definition leafy (leaf : inline -> inline) : Prop := forall i, is_leaf i = true -> is_leaf (leaf i) = true.

Section Compose.
  Variables (l1 l2 l3 : inline -> inline) (u1 u2 u3 h1 h2 h3 : str -> str).
  Hypothesis Hleafy : leafy l1.
  Hypothesis Hl : forall i, is_leaf i = true -> l2 (l1 i) = l3 i.
  Hypothesis Hu : forall s, u2 (u1 s) = u3 s.
  Hypothesis Hh : forall s, h2 (h1 s) = h3 s.
  Lemma rewrite_leaf leaf u i : is_leaf i = true -> rewrite_inline leaf u i = leaf i.
  Proof. destruct i; cbn; intros H; try discriminate; reflexivity. Qed.
  Lemma rewrite_inline_compose i :
    rewrite_inline l2 u2 (rewrite_inline l1 u1 i) = rewrite_inline l3 u3 i.
  Proof.
    induction i using inline_ind';
      try (cbn; repeat (erewrite map_map_Forall; [|eassumption]); rewrite ?Hu; reflexivity);
      rewrite (rewrite_leaf l1 u1), (rewrite_leaf l3 u3) by reflexivity;
      rewrite rewrite_leaf by (apply Hleafy; reflexivity); apply Hl; reflexivity.
  Qed.
  Lemma rewrite_inlines_compose l :
    map (rewrite_inline l2 u2) (map (rewrite_inline l1 u1) l) = map (rewrite_inline l3 u3) l.
  Proof. apply map_map_Forall, Forall_all, rewrite_inline_compose. Qed.
  Lemma rewrite_block_compose b :
    rewrite_block l2 u2 h2 (rewrite_block l1 u1 h1 b) = rewrite_block l3 u3 h3 b.
  Proof.
    induction b using block_ind'; cbn; rewrite ?rewrite_inlines_compose, ?Hh;
      try (erewrite map_map_Forall; [|eassumption]); try reflexivity.
    - do 2 f_equal. rewrite map_map. apply map_ext_Forall. eapply Forall_impl; [|exact H].
      intros it Hit. cbn. f_equal. now apply map_map_Forall.
    - do 2 f_equal. rewrite map_map. apply map_ext. intros row. rewrite map_map.
      apply map_ext. intros c. apply rewrite_inlines_compose.
  Qed.
  Lemma rewrite_document_compose d :
    rewrite_document l2 u2 h2 (rewrite_document l1 u1 h1 d) = rewrite_document l3 u3 h3 d.
  Proof.
    unfold rewrite_document. cbn. f_equal. rewrite map_map. apply map_ext. apply rewrite_block_compose.
  Qed.
End Compose.

Lemma leafy_leaf_of k f : leafy (leaf_of k f).
Proof. intros i; destruct k, i; cbn; auto. Qed.
Lemma leafy_drop_blank : leafy drop_blank.
Proof. intros i; destruct i; cbn; auto. destruct (forallb is_whitespace s); auto. Qed.

Lemma map_strings_id k d : map_strings k (fun s => s) d = d.
Proof.
  unfold map_strings. rewrite <- (rewrite_document_id d) at 1.
  erewrite rewrite_document_compose with (l3 := fun x => x) (u3 := fun x => x) (h3 := fun x => x).
  - apply rewrite_document_id.
  - intros i H; exact H.
  - intros i _. destruct k, i; cbn; try reflexivity. now destruct im.
  - destruct k; reflexivity.
  - destruct k; reflexivity.
Qed.
Lemma map_strings_fuse k f g d : map_strings k g (map_strings k f d) = map_strings k (fun s => g (f s)) d.
Proof.
  apply rewrite_document_compose.
  - apply leafy_leaf_of.
  - intros i _. destruct k, i; reflexivity.
  - destruct k; reflexivity.
  - destruct k; reflexivity.
Qed.
Lemma map_strings_commute k1 k2 f g d : k1 <> k2 ->
  map_strings k2 g (map_strings k1 f d) = map_strings k1 f (map_strings k2 g d).
Proof.
  intros Hne. unfold map_strings.
  rewrite (rewrite_document_compose _ _ (fun i => leaf_of k2 g (leaf_of k1 f i))
             _ _ (fun s => url_of k2 g (url_of k1 f s)) _ _ (fun s => html_of k2 g (html_of k1 f s)));
    auto using leafy_leaf_of.
  symmetry.
  apply rewrite_document_compose; try (apply leafy_leaf_of).
  - intros i _. destruct k1, k2, i; cbn; congruence.
  - destruct k1, k2; cbn; congruence.
  - destruct k1, k2; cbn; congruence.
Qed.

(** ** strings_of after map_strings *)
Lemma map_flat_map {A B C} (f : B -> C) (g : A -> list B) l :
  map f (flat_map g l) = flat_map (fun x => map f (g x)) l.
Proof. induction l as [|x l IH]; cbn; [reflexivity|]. now rewrite map_app, IH. Qed.
Lemma flat_map_map {A B C} (f : B -> list C) (g : A -> B) l :
  flat_map f (map g l) = flat_map (fun x => f (g x)) l.
Proof. induction l as [|x l IH]; cbn; congruence. Qed.

Section PreorderRewrite.
  Variables (leaf : inline -> inline) (url html : str -> str).
  Hypothesis Hleafy : leafy leaf.
  Lemma inline_preorder_leaf i : is_leaf i = true -> inline_preorder i = [i].
  Proof. destruct i; cbn; intros; try discriminate; reflexivity. Qed.
  Lemma inline_preorder_rewrite i :
    inline_preorder (rewrite_inline leaf url i) = map (rewrite_inline leaf url) (inline_preorder i).
  Proof.
    assert (L : forall l, Forall (fun i => inline_preorder (rewrite_inline leaf url i) = map (rewrite_inline leaf url) (inline_preorder i)) l ->
       flat_map inline_preorder (map (rewrite_inline leaf url) l) = map (rewrite_inline leaf url) (flat_map inline_preorder l)).
    { intros l Hl. rewrite flat_map_map, map_flat_map. now apply flat_map_ext_Forall. }
    induction i using inline_ind';
      try (rewrite rewrite_leaf by reflexivity; rewrite inline_preorder_leaf by (apply Hleafy; reflexivity);
           rewrite inline_preorder_leaf by reflexivity; cbn [map]; now rewrite rewrite_leaf by reflexivity);
      cbn; rewrite ?L by assumption; rewrite <- ?map_app; reflexivity.
  Qed.
  Lemma inlines_preorder_rewrite l :
    flat_map inline_preorder (map (rewrite_inline leaf url) l) = map (rewrite_inline leaf url) (flat_map inline_preorder l).
  Proof. rewrite flat_map_map, map_flat_map. apply flat_map_ext_Forall, Forall_all, inline_preorder_rewrite. Qed.
  Lemma block_inlines_rewrite b :
    block_inlines (rewrite_block leaf url html b) = map (rewrite_inline leaf url) (block_inlines b).
  Proof. destruct b; cbn; try reflexivity. now rewrite <- !concat_map. Qed.
  Lemma block_preorder_rewrite b :
    block_preorder (rewrite_block leaf url html b) = map (rewrite_block leaf url html) (block_preorder b).
  Proof.
    assert (L : forall l, Forall (fun b => block_preorder (rewrite_block leaf url html b) = map (rewrite_block leaf url html) (block_preorder b)) l ->
       flat_map block_preorder (map (rewrite_block leaf url html) l) = map (rewrite_block leaf url html) (flat_map block_preorder l)).
    { intros l Hl. rewrite flat_map_map, map_flat_map. now apply flat_map_ext_Forall. }
    induction b using block_ind'; cbn; rewrite ?L by assumption; try reflexivity.
    f_equal. rewrite flat_map_map, map_flat_map. apply flat_map_ext_Forall.
    eapply Forall_impl; [|exact H]. intros it Hit. cbn. now apply L.
  Qed.
  Lemma doc_blocks_rewrite d :
    doc_blocks (rewrite_document leaf url html d) = map (rewrite_block leaf url html) (doc_blocks d).
  Proof.
    unfold doc_blocks, rewrite_document. cbn. rewrite flat_map_map, map_flat_map.
    apply flat_map_ext_Forall, Forall_all, block_preorder_rewrite.
  Qed.
  Lemma doc_inlines_rewrite d :
    doc_inlines (rewrite_document leaf url html d) = map (rewrite_inline leaf url) (doc_inlines d).
  Proof.
    unfold doc_inlines. rewrite doc_blocks_rewrite, flat_map_map, map_flat_map.
    apply flat_map_ext. intros b. rewrite block_inlines_rewrite. apply inlines_preorder_rewrite.
  Qed.
End PreorderRewrite.

Lemma skind_dec (a b : skind) : {a = b} + {a <> b}.
Proof. decide equality. Defined.

Lemma strings_of_map k k' f d :
  strings_of k' (map_strings k f d) =
  if skind_dec k k' then map f (strings_of k' d) else strings_of k' d.
Proof.
  unfold strings_of, map_strings. rewrite doc_blocks_rewrite, flat_map_map.
  assert (Hi : forall i, inline_string k' (rewrite_inline (leaf_of k f) (url_of k f) i) =
      if skind_dec k k' then map f (inline_string k' i) else inline_string k' i).
  { intros i. destruct (skind_dec k k') as [->|Hne]; [destruct k', i; reflexivity|].
    destruct k, k'; try congruence; destruct i; reflexivity. }
  assert (Hb : forall b, block_string k' (rewrite_block (leaf_of k f) (url_of k f) (html_of k f) b) =
      if skind_dec k k' then map f (block_string k' b) else block_string k' b).
  { intros b. destruct (skind_dec k k') as [->|Hne]; [destruct k', b; reflexivity|].
    destruct k, k'; try congruence; destruct b; reflexivity. }
  assert (Hi2 : forall l, flat_map (inline_string k') (map (rewrite_inline (leaf_of k f) (url_of k f)) l) =
      if skind_dec k k' then map f (flat_map (inline_string k') l) else flat_map (inline_string k') l).
  { intros l. rewrite flat_map_map. erewrite flat_map_ext; [|exact Hi].
    destruct (skind_dec k k'); [now rewrite map_flat_map|reflexivity]. }
  erewrite flat_map_ext.
  2:{ intros b. rewrite Hb, block_inlines_rewrite, inlines_preorder_rewrite, Hi2 by apply leafy_leaf_of.
      reflexivity. }
  destruct (skind_dec k k'); [|reflexivity]. rewrite map_flat_map. apply flat_map_ext.
  intros b. now rewrite map_app.
Qed.
Lemma skeleton_map k f d : skeleton k (map_strings k f d) = skeleton k d.
Proof. unfold skeleton. now rewrite map_strings_fuse. Qed.

(** [strings_of k] and [skeleton k] together determine the document. *)
Section StrInj.
  Variable k : skind.
  Local Notation RI := (rewrite_inline (leaf_of k (fun _ => [])) (url_of k (fun _ => []))).
  Local Notation RB := (rewrite_block (leaf_of k (fun _ => [])) (url_of k (fun _ => [])) (html_of k (fun _ => []))).
  Definition si (i : inline) := flat_map (inline_string k) (inline_preorder i).
  Definition sb (b : block) := flat_map (fun b => block_string k b ++ flat_map (inline_string k) (flat_map inline_preorder (block_inlines b)))
    (block_preorder b).
  Definition pinned {X Z} (sX : X -> Z) (dX : X -> list str) (a : X) : Prop :=
    forall b r1 r2, sX a = sX b -> dX a ++ r1 = dX b ++ r2 -> a = b /\ r1 = r2.
  Lemma pinned_list {X Z} (sX : X -> Z) dX l :
    Forall (pinned sX dX) l -> pinned (map sX) (flat_map dX) l.
  Proof.
    induction 1 as [|x l Hx _ IH]; intros [|y l2] r1 r2 Hs Hd; cbn in *; try discriminate; auto.
    injection Hs as Hs1 Hs2. rewrite <- !app_assoc in Hd.
    destruct (Hx _ _ _ Hs1 Hd) as [-> Hd2]. destruct (IH _ _ _ Hs2 Hd2) as [-> ->]. auto.
  Qed.
  Lemma si_eq i : si i = inline_string k i ++ flat_map si (inline_children i).
  Proof.
    unfold si at 1. destruct i; cbn; rewrite ?flat_map_app, ?flat_map_flat_map; reflexivity.
  Qed.
  Lemma sb_eq b : sb b = block_string k b ++ flat_map si (block_inlines b) ++ flat_map sb (block_children b).
  Proof.
    unfold sb at 1. assert (E : flat_map (inline_string k) (flat_map inline_preorder (block_inlines b)) = flat_map si (block_inlines b)).
    { now rewrite flat_map_flat_map. }
    destruct b; cbn in *; rewrite ?flat_map_flat_map, ?app_nil_r, <- ?app_assoc; try reflexivity; try (rewrite <- E; reflexivity).
    f_equal. cbn. apply flat_map_ext. intros it. now rewrite flat_map_flat_map.
  Qed.
End StrInj.

(** ** remove_empty_text *)
Lemma remove_empty_text_no_blank d s :
  In (IText s) (doc_inlines (remove_empty_text d)) -> forallb is_whitespace s = false.
Proof.
  rewrite remove_empty_text_eq, doc_inlines_rewrite by apply leafy_drop_blank.
  rewrite in_map_iff. intros (i & Hi & _). destruct i; cbn in Hi; try discriminate.
  destruct (forallb is_whitespace s0) eqn:E; [discriminate|]. congruence.
Qed.
Lemma remove_empty_text_idem d : remove_empty_text (remove_empty_text d) = remove_empty_text d.
Proof.
  rewrite !remove_empty_text_eq. apply rewrite_document_compose; auto using leafy_drop_blank.
  intros i _. destruct i; cbn; try reflexivity. destruct (forallb is_whitespace s) eqn:E; cbn; rewrite ?E; reflexivity.
Qed.

(** ** Words *)
Lemma split_ws_words s : forall cur,
  forallb (fun c => negb (is_whitespace c)) cur = true ->
  words (rev cur ++ s) (split_ws_aux cur s).
Proof.
  assert (Hr : forall l, forallb (fun c => negb (is_whitespace c)) l = true ->
      forallb (fun c => negb (is_whitespace c)) (rev l) = true).
  { intros l. rewrite !forallb_forall. intros H x Hx. apply H. now apply in_rev. }
  induction s as [|c s IH]; intros cur Hcur; cbn.
  - rewrite app_nil_r. destruct cur as [|x cur].
    + constructor.
    + apply words_last; [|now apply Hr]. cbn. now destruct (rev cur).
  - destruct (is_whitespace c) eqn:E.
    + destruct cur as [|x cur].
      * cbn. apply words_space; [assumption|]. apply (IH []). reflexivity.
      * apply words_word; auto.
        -- cbn. now destruct (rev cur).
        -- apply (IH []). reflexivity.
    + specialize (IH (c :: cur)). cbn in IH. rewrite <- app_assoc in IH. cbn in IH. apply IH.
      rewrite E. exact Hcur.
Qed.
Lemma words_split s : words s (split_whitespace s).
Proof. apply (split_ws_words s []). reflexivity. Qed.

Lemma split_ws_word w : forall cur s, forallb (fun c => negb (is_whitespace c)) w = true ->
  split_ws_aux cur (w ++ s) = split_ws_aux (rev w ++ cur) s.
Proof.
  induction w as [|c w IH]; intros cur s H; cbn; [reflexivity|].
  cbn in H. apply andb_prop in H as [H1 H2]. apply negb_true_iff in H1. rewrite H1.
  rewrite IH by assumption. now rewrite <- app_assoc.
Qed.
Lemma words_unique s ws : words s ws -> split_whitespace s = ws.
Proof.
  unfold split_whitespace. induction 1 as [|c s ws Hc _ IH|w Hn Hw|w c s ws Hn Hw Hc _ IH].
  - reflexivity.
  - cbn. now rewrite Hc.
  - rewrite <- (app_nil_r w) at 1. rewrite split_ws_word by assumption. cbn. rewrite app_nil_r.
    destruct (rev w) eqn:E; [apply (f_equal (@rev _)) in E; rewrite rev_involutive in E; now cbn in E|].
    rewrite <- E. now rewrite rev_involutive.
  - rewrite split_ws_word by assumption. cbn. rewrite Hc, app_nil_r.
    destruct (rev w) eqn:E; [apply (f_equal (@rev _)) in E; rewrite rev_involutive in E; now cbn in E|].
    rewrite <- E, rev_involutive. now rewrite IH.
Qed.
Lemma words_all_words s ws : words s ws ->
  Forall (fun w => w <> [] /\ forallb (fun c => negb (is_whitespace c)) w = true) ws.
Proof. induction 1; auto. Qed.
Lemma words_join ws :
  Forall (fun w => w <> [] /\ forallb (fun c => negb (is_whitespace c)) w = true) ws ->
  words (join [c_sp] ws) ws.
Proof.
  induction 1 as [|w ws [Hn Hw] Hws IH]; [constructor|].
  destruct ws as [|w2 ws].
  - now constructor.
  - change (join [c_sp] (w :: w2 :: ws)) with (w ++ c_sp :: join [c_sp] (w2 :: ws)).
    apply words_word; auto.
Qed.
Definition normalize_string (s : str) : str := join [c_sp] (split_whitespace s).
Lemma normalize_canonical s : canonical (normalize_string s).
Proof. exists (split_whitespace s). split; [|reflexivity]. eapply words_all_words, words_split. Qed.
Lemma normalize_words s ws : words s ws -> words (normalize_string s) ws.
Proof.
  intros H. unfold normalize_string. rewrite (words_unique _ _ H). apply words_join.
  eapply words_all_words, H.
Qed.
Lemma normalize_string_idem s : normalize_string (normalize_string s) = normalize_string s.
Proof.
  unfold normalize_string at 1. rewrite (words_unique _ (split_whitespace s)); [reflexivity|].
  apply normalize_words, words_split.
Qed.
Lemma normalize_canonical_fix s : canonical s -> normalize_string s = s.
Proof.
  intros (ws & Hws & ->). unfold normalize_string. f_equal. apply words_unique, words_join, Hws.
Qed.
Lemma normalize_whitespace_eq d : normalize_whitespace d = map_strings KText normalize_string d.
Proof. apply transform_text_eq. Qed.
