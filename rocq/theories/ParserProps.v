(** Consequences of [parse_inv] for the individual properties; merging. *)
From Coq Require Import String.
From Verif Require Export ParserInv ParserTotal.
Import ListNotations.
Open Scope list_scope.
Local Notation len := (@List.length _).

Lemma no_user_inline : forall P cfg, no_user_code cfg -> inline_user_code_keeps P cfg.
Proof.
  intros P cfg (H & _ & Hc & _). split; [|intros; congruence].
  eapply Forall_impl; [|exact H]. intros [] Hb; now try destruct Hb.
Qed.
Lemma no_user_block : forall P cfg, no_user_code cfg -> block_user_code_keeps P cfg.
Proof.
  intros P cfg (_ & H & _ & Hc). split; [|intros; congruence].
  eapply Forall_impl; [|exact H]. intros [] Hb; now try destruct Hb.
Qed.
Lemma every_true : forall i, everyI (fun _ => True) i.
Proof. intro i. apply Forall_forall. now intros. Qed.
Lemma keeps_true : forall A (P : A -> Prop) b, (forall x, P x) -> hook_keeps P b.
Proof. intros A P [] H; cbn; intros; try apply Forall_forall; auto. Qed.
Lemma user_true : forall cfg, inline_user_code_keeps (everyI (fun _ => True)) cfg.
Proof.
  intro cfg. split; [|intros; apply Forall_forall; intros; apply every_true].
  repeat (apply Forall_cons1; [apply keeps_true, every_true|]). constructor.
Qed.

Theorem heading_levels : forall cfg, block_user_code_keeps (goodB heading_level_ok) cfg ->
  forall s r d, parse_markdown cfg s = Ok r d -> Forall heading_level_ok (doc_blocks d).
Proof.
  intros cfg HU. apply parse_inv with (PI := fun _ => True); intros; cbn; auto using user_true.
Qed.
Theorem tables_rectangular : forall cfg, block_user_code_keeps (goodB table_ok) cfg ->
  forall s r d, parse_markdown cfg s = Ok r d -> Forall table_ok (doc_blocks d).
Proof.
  intros cfg HU. apply parse_inv with (PI := fun _ => True); intros; cbn; auto using user_true.
Qed.
Theorem lists_ok : forall cfg, block_user_code_keeps (goodB list_ok) cfg ->
  forall s r d, parse_markdown cfg s = Ok r d -> Forall list_ok (doc_blocks d).
Proof.
  intros cfg HU. apply parse_inv with (PI := fun _ => True); intros; cbn; auto using user_true.
  split; [assumption|]. destruct k; auto.
Qed.
Theorem block_switches : forall cfg, block_user_code_keeps (goodB (fun b => switched_on (block_switch cfg b))) cfg ->
  forall s r d, parse_markdown cfg s = Ok r d -> Forall (fun b => switched_on (block_switch cfg b)) (doc_blocks d).
Proof.
  intros cfg HU. apply parse_inv with (PI := fun _ => True); intros; cbn; auto using user_true;
  match goal with H : yields ?b |- _ => destruct b; cbn in *; auto end.
Qed.
(** inline predicates: carried by the blocks *)
Definition inl (PI : inline -> Prop) (b : block) : Prop := Forall (everyI PI) (block_inlines b).
Lemma inl_doc : forall PI d, Forall (inl PI) (doc_blocks d) -> Forall PI (doc_inlines d).
Proof.
  intros PI d H. unfold doc_inlines. induction H as [|b l Hb Hl IH]; cbn; [constructor|].
  apply Forall_app. split; [|exact IH]. now apply every_flat.
Qed.
Theorem inline_inv : forall cfg PI,
  inline_user_code_keeps (everyI PI) cfg -> block_user_code_keeps (goodB (inl PI)) cfg ->
  (forall s, PI (IText s)) -> PI IEmpty ->
  (yields (i_autolink cfg) -> forall u, PI (IAutolink u)) ->
  (yields (i_link cfg) -> forall d t c, everyIs PI c -> PI (ILink (Link d t c))) ->
  (yields (i_footnote_reference cfg) -> forall l, PI (IFootnoteReference l)) ->
  (yields (i_reference_link cfg) -> forall l t, everyIs PI l -> everyIs PI t -> PI (ILinkReference (LinkReference l t))) ->
  (yields (i_hard_newline cfg) -> PI ILineBreak) ->
  (yields (i_image cfg) -> forall im, PI (IImage im)) ->
  (yields (i_code_span cfg) -> forall s, PI (ICode s)) ->
  (yields (i_emphasis cfg) -> forall c, everyIs PI c -> PI (IEmphasis c)) ->
  (yields (i_emphasis cfg) -> forall c, everyIs PI c -> PI (IStrong c)) ->
  (yields (i_strikethrough cfg) -> forall c, everyIs PI c -> PI (IStrikethrough c)) ->
  forall s r d, parse_markdown cfg s = Ok r d -> Forall PI (doc_inlines d).
Proof.
  intros cfg PI HU HUB. intros. apply inl_doc.
  match goal with E : parse_markdown _ _ = _ |- _ => revert E end. revert s r d.
  apply parse_inv with (PI := PI); intros; cbn; unfold inl; cbn; try (now auto); try constructor;
  try (match goal with H : everyIs PI ?c |- Forall _ ?c => apply H end).
  match goal with |- Forall _ (concat (concat (t_rows ?t))) => induction (t_rows t) as [|row rows IH]; [constructor|] end. cbn [concat].
  match goal with HH : Forall _ (row :: rows) |- _ => inversion HH as [|? ? Hr Hrs]; subst end.
  rewrite concat_app. apply Forall_app. split.
  - apply Forall_concat. eapply Forall_impl; [|exact Hr]. now intros a [_ Ha].
  - now apply IH.
Qed.
Theorem inline_switches : forall cfg,
  inline_user_code_keeps (everyI (fun i => switched_on (inline_switch cfg i))) cfg ->
  block_user_code_keeps (goodB (inl (fun i => switched_on (inline_switch cfg i)))) cfg ->
  forall s r d, parse_markdown cfg s = Ok r d -> Forall (fun i => switched_on (inline_switch cfg i)) (doc_inlines d).
Proof.
  intros cfg HU HUB. apply inline_inv; try assumption; intros; cbn; auto;
  match goal with H : yields ?b |- _ => destruct b; cbn in *; auto end.
Qed.
Theorem no_html_inline : forall cfg,
  inline_user_code_keeps (everyI (fun i => forall h, i <> IHtml h)) cfg ->
  block_user_code_keeps (goodB (inl (fun i => forall h, i <> IHtml h))) cfg ->
  forall s r d, parse_markdown cfg s = Ok r d -> forall h, ~ In (IHtml h) (doc_inlines d).
Proof.
  intros cfg HU HUB s r d E h Hin.
  assert (X : Forall (fun i => forall h, i <> IHtml h) (doc_inlines d)).
  { revert E. revert s r d Hin. intros s r d Hin. revert s r d Hin.
    intros s r d _. revert s r d. apply inline_inv; try assumption; intros; discriminate. }
  rewrite Forall_forall in X. now elim (X _ Hin h).
Qed.

(** merged lists *)
Definition li_ok (i : inline) : Prop := Forall merged (inline_lists i).
Definition lb_ok (b : block) : Prop := Forall (everyIs li_ok) (block_inline_lists b).
Lemma Forall_flat : forall A B (P : B -> Prop) (f : A -> list B) l,
  Forall P (flat_map f l) <-> Forall (fun a => Forall P (f a)) l.
Proof.
  intros A B P f l. induction l as [|a l IH]; cbn; [split; constructor|]. rewrite Forall_app, Forall_cons_iff, IH. reflexivity.
Qed.
Lemma Forall_concat_iff : forall A (P : A -> Prop) l, Forall P (concat l) <-> Forall (Forall P) l.
Proof. intros A P l. induction l as [|a l IH]; cbn; [split; constructor|]. rewrite Forall_app, Forall_cons_iff, IH. reflexivity. Qed.
Lemma Forall_and_iff : forall A (P Q : A -> Prop) l, Forall (fun a => P a /\ Q a) l <-> Forall P l /\ Forall Q l.
Proof. intros A P Q l. induction l as [|a l IH]; [repeat split; constructor|]. rewrite !Forall_cons_iff, IH. tauto. Qed.
Lemma all_lists_iff : forall bs, Forall merged (all_inline_lists bs) <-> Forall lb_ok bs.
Proof.
  intros bs. unfold all_inline_lists, lb_ok. rewrite Forall_app. rewrite <- Forall_flat.
  unfold everyIs at 1. rewrite Forall_and_iff, <- Forall_concat_iff.
  unfold everyI. rewrite <- Forall_flat. unfold li_ok. rewrite <- Forall_flat. reflexivity.
Qed.
Lemma keeps_iff : forall A (P Q : A -> Prop) b, (forall x, P x <-> Q x) -> hook_keeps P b -> hook_keeps Q b.
Proof.
  intros A P Q b H Hb. destruct b; cbn in *; auto; intros.
  - apply H, Hb, H. assumption.
  - eapply Forall_impl; [|apply Hb, H; assumption]. intros. now apply H.
Qed.
Theorem texts_merged : forall cfg,
  inline_user_code_keeps (fun i => Forall merged (flat_map inline_lists (inline_preorder i))) cfg ->
  block_user_code_keeps (fun b => Forall merged (all_inline_lists (block_preorder b))) cfg ->
  forall s r d, parse_markdown cfg s = Ok r d -> Forall merged (doc_inline_lists d).
Proof.
  intros cfg [HU1 HU2] [HB1 HB2] s r d E. unfold doc_inline_lists. apply all_lists_iff.
  revert E. revert s r d. apply parse_inv with (PI := li_ok).
  - split.
    + eapply Forall_impl; [|exact HU1]. intros b. apply keeps_iff. intro x. apply Forall_flat.
    + intros p s r l E1 E2. eapply Forall_impl; [|exact (HU2 _ _ _ _ E1 E2)]. intros x. apply Forall_flat.
  - constructor.
  - constructor.
  - constructor.
  - intros _ dd t c [Hc _]. now repeat constructor.
  - constructor.
  - intros _ l t [Hl _] [Ht _]. now repeat constructor.
  - constructor.
  - constructor.
  - constructor.
  - intros _ c [Hc _]. now repeat constructor.
  - intros _ c [Hc _]. now repeat constructor.
  - intros _ c [Hc _]. now repeat constructor.
  - split.
    + eapply Forall_impl; [|exact HB1]. intros b. apply keeps_iff. intro x. apply all_lists_iff.
    + intros p s r l E1 E2. eapply Forall_impl; [|exact (HB2 _ _ _ _ E1 E2)]. intros x. apply all_lists_iff.
  - constructor.
  - intros _ c Hc. constructor; [exact Hc|constructor].
  - intros _ n c _ Hc. constructor; [exact Hc|constructor].
  - intros _ l c Hc. constructor; [exact Hc|constructor].
  - constructor.
  - constructor.
  - constructor.
  - constructor.
  - constructor.
  - intros _ l dd t Hl. constructor; [exact Hl|constructor].
  - intros _ t _ Ht. unfold lb_ok. cbn. now apply Forall_concat_iff.
  - constructor.
  - constructor.
Qed.

(** ** Merging keeps the content *)
Lemma joins_app : forall a l m, joins_to l m -> joins_to (a ++ l) (a ++ m).
Proof.
  intros a l m H. induction H as [l|l m n H _ IH]; [constructor|]. econstructor; [|exact IH].
  destruct H as [b s t c]. rewrite !app_assoc. constructor.
Qed.
Lemma joins_cons : forall x l m, joins_to l m -> joins_to (x :: l) (x :: m).
Proof. intros x l m H. exact (joins_app [x] l m H). Qed.
Lemma joins_merge : forall l acc,
  joins_to (match acc with Some t => IText t :: l | None => l end) (merge_go acc l).
Proof.
  induction l as [|i l IH]; intros acc; cbn [merge_go]; [destruct acc; constructor|].
  destruct i; try (destruct acc; cbn [app]; repeat apply joins_cons; apply (IH None)).
  destruct acc as [a|]; [|exact (IH (Some s))].
  econstructor; [apply (join_here [])|]. exact (IH (Some (a ++ s))).
Qed.
Lemma merge_fix : forall l acc, merged (match acc with Some t => IText t :: l | None => l end) ->
  merge_go acc l = match acc with Some t => IText t :: l | None => l end.
Proof.
  assert (ML : forall x l, merged (x :: l) -> merged l).
  { intros x l H a s t b E. apply (H (x :: a) s t b). cbn. now rewrite E. }
  induction l as [|i l IH]; intros acc H; cbn [merge_go]; [destruct acc; reflexivity|].
  destruct i; try (destruct acc; cbn [app]; repeat f_equal; apply (IH None); [exact (ML _ _ (ML _ _ H))|exact (ML _ _ H)]).
  destruct acc as [a|].
  - exfalso. exact (H [] a s l eq_refl).
  - exact (IH (Some s) H).
Qed.
Theorem merge_idem : forall l, merge_consecutive_text_elements (merge_consecutive_text_elements l)
  = merge_consecutive_text_elements l.
Proof. intro l. apply (merge_fix _ None). apply merge_merged_go. Qed.
Lemma merge_app_text : forall a s t b acc,
  merge_go acc (a ++ IText s :: IText t :: b) = merge_go acc (a ++ IText (s ++ t) :: b).
Proof.
  induction a as [|i a IH]; intros s t b acc; cbn [app merge_go].
  - now rewrite app_assoc.
  - destruct i; try apply IH; f_equal; f_equal; apply IH.
Qed.
Theorem merge_unique : forall l m, joins_to l m -> merged m -> m = merge_consecutive_text_elements l.
Proof.
  intros l m H Hm. induction H as [l|l m n H _ IH].
  - symmetry. now apply (merge_fix l None).
  - rewrite IH by exact Hm. destruct H. symmetry. apply merge_app_text.
Qed.
