(** The effect of hooks on the parse result: the result with hooks is the
    result without, transformed bottom-up. *)
From Coq Require Import String.
From Verif Require Export ParserProps.
Import ListNotations.
Open Scope list_scope.
Local Notation len := (@List.length _).

Definition rmap {A B} (f : A -> B) (x : res A) : res B :=
  match x with Ok r a => Ok r (f a) | Err => Err | Oof => Oof end.
Definition sim {A B} (f : A -> B) (p : parser A) (q : parser B) : Prop := forall s, q s = rmap f (p s).
Notation eqp := (sim (fun x => x)).

Lemma eqp_iff : forall A (p q : parser A), eqp p q <-> forall s, q s = p s.
Proof. intros A p q. split; intros H s; specialize (H s); unfold rmap in *; destruct (p s); exact H. Qed.
Lemma eqp_refl : forall A (p : parser A), eqp p p. Proof. intros. now apply eqp_iff. Qed.
Lemma sim_ext : forall A B (f g : A -> B) p q, (forall a, f a = g a) -> sim f p q -> sim g p q.
Proof. intros A B f g p q H Hs s. rewrite Hs. unfold rmap. destruct (p s); [now rewrite H|reflexivity..]. Qed.
Lemma sim_ret : forall A B (f : A -> B) a b, b = f a -> sim f (ret a) (ret b).
Proof. intros A B f a b -> s. reflexivity. Qed.
Lemma sim_fail : forall A B (f : A -> B), sim f fail fail. Proof. intros A B f s. reflexivity. Qed.
Lemma sim_bind : forall A B C D (f : A -> B) (g : C -> D) p q k k',
  sim f p q -> (forall a, sim g (k a) (k' (f a))) -> sim g (bind p k) (bind q k').
Proof.
  intros A B C D f g p q k k' Hp Hk s. unfold bind. rewrite Hp. destruct (p s) as [r a| |]; [apply Hk|reflexivity..].
Qed.
Lemma sim_bind_id : forall A C D (g : C -> D) (p q : parser A) k k',
  eqp p q -> (forall a, sim g (k a) (k' a)) -> sim g (bind p k) (bind q k').
Proof. intros. eapply sim_bind; eassumption. Qed.
Lemma sim_pmap : forall A B C D (f : A -> B) (g : C -> D) p q (h : A -> C) (h' : B -> D),
  sim f p q -> (forall a, h' (f a) = g (h a)) -> sim g (pmap h p) (pmap h' q).
Proof. intros. eapply sim_bind; [eassumption|]. intro a. apply sim_ret. auto. Qed.
Lemma sim_or : forall A B (f : A -> B) p q p' q', sim f p q -> sim f p' q' -> sim f (or_else p p') (or_else q q').
Proof. intros A B f p q p' q' H H' s. unfold or_else. rewrite H. destruct (p s); [reflexivity|apply H'|reflexivity]. Qed.
Lemma sim_alt : forall A B (f : A -> B) l l', Forall2 (sim f) l l' -> sim f (alt l) (alt l').
Proof.
  intros A B f l l' H. induction H as [|p q l l' Hpq Hl IH]; [apply sim_fail|].
  destruct Hl; [exact Hpq|]. exact (sim_or _ _ f _ _ _ _ Hpq IH).
Qed.
Lemma sim_many0 : forall A B (f : A -> B) p q, sim f p q -> sim (map f) (many0 p) (many0 q).
Proof.
  intros A B f p q H s. unfold many0. generalize (S (len s)) as n. intros n. revert s.
  induction n as [|n IH]; intros s; [reflexivity|]. cbn [many0_go]. rewrite H.
  destruct (p s) as [r a| |]; cbn [rmap]; try reflexivity. destruct (_ =? _); [reflexivity|]. rewrite IH.
  now destruct (many0_go n p r).
Qed.
Lemma sim_many1 : forall A B (f : A -> B) p q, sim f p q -> sim (map f) (many1 p) (many1 q).
Proof.
  intros A B f p q H. eapply sim_bind; [exact H|]. intro a. eapply sim_pmap; [apply sim_many0, H|]. reflexivity.
Qed.
Lemma sim_sep_go : forall A B C (f : A -> B) (sep sep' : parser C) p q, eqp sep sep' -> sim f p q ->
  sim (map f) (fun s => sep_go (S (len s)) sep p s) (fun s => sep_go (S (len s)) sep' q s).
Proof.
  intros A B C f sep sep' p q Hsep H s. apply eqp_iff with (1 := Hsep) in s as _ || idtac.
  assert (Hs : forall s, sep' s = sep s) by now apply eqp_iff.
  generalize (S (len s)) as n. intros n. revert s.
  induction n as [|n IH]; intros s; [reflexivity|]. cbn [sep_go]. rewrite Hs.
  destruct (sep s) as [r c| |]; cbn [rmap]; try reflexivity. rewrite H.
  destruct (p r) as [r2 a| |]; cbn [rmap]; try reflexivity. destruct (_ =? _); [reflexivity|]. rewrite IH.
  now destruct (sep_go n sep p r2).
Qed.
Lemma sim_sep1 : forall A B C (f : A -> B) (sep sep' : parser C) p q, eqp sep sep' -> sim f p q ->
  sim (map f) (separated_list1 sep p) (separated_list1 sep' q).
Proof.
  intros. eapply sim_bind; [eassumption|]. intro a. eapply sim_pmap; [apply sim_sep_go; eassumption|]. reflexivity.
Qed.
Lemma sim_sep0 : forall A B C (f : A -> B) (sep sep' : parser C) p q, eqp sep sep' -> sim f p q ->
  sim (map f) (separated_list0 sep p) (separated_list0 sep' q).
Proof.
  intros A B C f sep sep' p q Hs H s. unfold separated_list0. rewrite H. destruct (p s) as [r a| |]; cbn [rmap]; try reflexivity.
  eapply sim_pmap; [apply sim_sep_go; eassumption|]. reflexivity.
Qed.
Lemma sim_nested : forall A B (f : A -> B) p q c, sim f p q -> sim f (nested p c) (nested q c).
Proof. intros A B f p q c H s. unfold nested. rewrite H. now destruct (p c). Qed.
Lemma sim_unit : forall A B (f : A -> B) p q, sim f p q -> eqp (p_unit p) (p_unit q).
Proof. intros. eapply sim_pmap; [eassumption|]. reflexivity. Qed.
Lemma sim_not : forall A B (f : A -> B) p q, sim f p q -> eqp (not_ p) (not_ q).
Proof. intros A B f p q H s. unfold not_. rewrite H. now destruct (p s). Qed.
Lemma sim_peek : forall A B (f : A -> B) p q, sim f p q -> sim f (peek p) (peek q).
Proof. intros A B f p q H s. unfold peek. rewrite H. now destruct (p s). Qed.
Lemma sim_preceded : forall A B C D (g : A -> B) (f : C -> D) p p' q q', sim g p p' -> sim f q q' -> sim f (preceded p q) (preceded p' q').
Proof. intros. eapply sim_bind; [eassumption|]. intro. assumption. Qed.
Lemma sim_terminated : forall A B C D (g : A -> B) (f : C -> D) p p' q q', sim f q q' -> sim g p p' -> sim f (terminated q p) (terminated q' p').
Proof. intros. eapply sim_bind; [eassumption|]. intro. eapply sim_pmap; [eassumption|]. reflexivity. Qed.
Lemma sim_recognize : forall A B (f : A -> B) p q, sim f p q -> eqp (recognize p) (recognize q).
Proof. intros A B f p q H s. unfold recognize. rewrite H. now destruct (p s). Qed.
Lemma sim_line_terminated : forall C D (f : C -> D) p q, sim f p q -> sim f (line_terminated p) (line_terminated q).
Proof. intros. eapply sim_terminated; [eassumption|apply eqp_refl]. Qed.
Lemma eqp_map : forall A (p q : parser A), eqp p q -> eqp (many1 p) (many1 q).
Proof. intros A p q H. eapply sim_ext; [|apply sim_many1, H]. intro. apply map_id. Qed.

(** a hooked element: [g] transforms the children, [T] the element *)
Lemma sim_cond : forall A (e : A) (b : behavior A) (T : A -> list A) (g : A -> A) p q,
  sim g p q -> outs (fun a => T a = act e b (g a)) p ->
  sim (flat_map T) (conditional (unhook b) [e] p) (conditional b [e] q).
Proof.
  intros A e b T g p q H HT s.
  assert (X : forall r a, p s = Ok r a -> T a = act e b (g a)) by (intros; now eapply HT; eassumption).
  destruct b; cbn [conditional unhook]; try reflexivity; unfold value, pmap, bind, ret; rewrite H;
    destruct (p s) as [r a| |]; cbn [rmap flat_map]; try reflexivity; rewrite (X r a eq_refl); cbn [act];
    now rewrite ?app_nil_r.
Qed.
Lemma sim_cond_unit : forall A (b : behavior A) p q, eqp p q -> eqp (conditional_unit (unhook b) p) (conditional_unit b q).
Proof. intros A b p q H. destruct b; cbn [conditional_unit unhook]; try exact H. apply sim_fail. Qed.

(** ** Joining texts and element-wise transformations *)
Notation mrg := merge_consecutive_text_elements.
Lemma merge_joins : forall l m, joins_to l m -> mrg l = mrg m.
Proof. induction 1 as [|l m n H _ IH]; [reflexivity|]. rewrite <- IH. destruct H. apply merge_app_text. Qed.
Lemma joins_flat : forall T, (forall s, T (IText s) = [IText s]) -> forall l m, joins_to l m ->
  joins_to (flat_map T l) (flat_map T m).
Proof.
  intros T HT l m H. induction H as [|l m n H _ IH]; [constructor|]. econstructor; [|exact IH].
  destruct H. rewrite !flat_map_app. cbn [flat_map]. rewrite !HT. cbn [app]. constructor.
Qed.
Lemma merge_flat : forall T, (forall s, T (IText s) = [IText s]) -> forall l,
  mrg (flat_map T (mrg l)) = mrg (flat_map T l).
Proof. intros T HT l. symmetry. apply merge_joins, joins_flat; [exact HT|]. exact (joins_merge l None). Qed.

Section Hooks.
  Variable cfg : config.
  Hypothesis HT : tree_hooks mrg cfg.
  Notation cfg0 := (unhook_config cfg).
  Notation ai := (act_inline mrg cfg).
  Notation ais := (act_inlines mrg cfg).
  Notation ab := (act_block mrg cfg).

  Section R.
    Variables rec0 rec : parser (list inline).
    Hypothesis Hrec : sim ais rec0 rec.
    Lemma sim_link_label : sim ais (p_link_label rec0) (p_link_label rec).
    Proof.
      eapply sim_preceded; [apply eqp_refl|]. eapply sim_terminated; [|apply eqp_refl].
      apply sim_bind_id; [apply eqp_refl|]. intro. now apply sim_nested.
    Qed.
    Definition act_link (l : link) : link := Link (link_destination l) (link_title l) (ais (link_children l)).
    Lemma sim_inline_link : sim act_link (p_inline_link rec0) (p_inline_link rec).
    Proof.
      eapply sim_bind; [apply sim_link_label|]. intro c. apply sim_bind_id; [apply eqp_refl|]. intros [d t]. now apply sim_ret.
    Qed.
    (** transforms the children of an element only *)
    Definition inner (i : inline) : inline :=
      match i with
      | ILink l => ILink (act_link l)
      | ILinkReference (LinkReference l t) => ILinkReference (LinkReference (ais l) (ais t))
      | IEmphasis c => IEmphasis (ais c)
      | IStrong [IEmphasis c] => IStrong [IEmphasis (ais c)] (* only used on "***c***" *)
      | IStrikethrough c => IStrikethrough (ais c)
      | i => i
      end.
    Lemma sim_reference_link : sim inner (p_reference_link rec0) (p_reference_link rec).
    Proof.
      apply sim_alt. repeat apply Forall2_cons1; try constructor.
      - eapply sim_bind; [apply sim_link_label|]. intro t. eapply sim_bind; [apply sim_link_label|]. intro l. now apply sim_ret.
      - eapply sim_pmap; [eapply sim_terminated; [apply sim_link_label|apply eqp_refl]|]. reflexivity.
      - eapply sim_pmap; [apply sim_link_label|]. reflexivity.
    Qed.
    Lemma sim_emph : forall t, sim ais (p_emph cfg0 rec0 t) (p_emph cfg rec t).
    Proof.
      intro t. eapply sim_preceded; [apply eqp_refl|]. eapply sim_terminated; [|apply eqp_refl].
      apply sim_bind_id; [apply eqp_refl|]. intro. now apply sim_nested.
    Qed.
    Lemma sim_strikethrough : sim inner (p_strikethrough rec0) (p_strikethrough rec).
    Proof.
      do 3 (apply sim_bind_id; [apply eqp_refl|]; intro). eapply sim_pmap; [apply sim_nested, Hrec|]. reflexivity.
    Qed.
    Lemma sim_emphasis_unit : eqp (p_unit (p_emphasis cfg0 rec0)) (p_unit (p_emphasis cfg rec)).
    Proof.
      set (g := fun i => match i with
        | IStrong [IEmphasis c] => IStrong [IEmphasis (ais c)] | i => i end).
      intros s. unfold p_unit, value, pmap, bind, ret, p_emphasis. cbn [alt]. unfold or_else, pmap, bind, ret.
      rewrite !sim_emph.
      repeat (match goal with |- context [p_emph cfg0 rec0 ?t s] => destruct (p_emph cfg0 rec0 t s) end; cbn [rmap]; try reflexivity).
    Qed.
    Lemma sim_not_a_text : eqp (p_not_a_text cfg0 rec0) (p_not_a_text cfg rec).
    Proof.
      apply sim_alt. repeat apply Forall2_cons1; try constructor; try (apply sim_cond_unit); try apply eqp_refl.
      - eapply sim_unit, sim_reference_link.
      - eapply sim_unit, sim_inline_link.
      - apply sim_emphasis_unit.
      - eapply sim_unit, sim_strikethrough.
    Qed.
    Lemma sim_text : eqp (p_text cfg0 rec0) (p_text cfg rec).
    Proof.
      eapply sim_pmap; [|reflexivity]. apply eqp_map. apply sim_alt. repeat apply Forall2_cons1; try constructor; try apply eqp_refl.
      eapply sim_recognize. apply sim_many1 with (f := fun x => x). eapply sim_preceded; [|apply eqp_refl].
      eapply sim_peek, sim_not, sim_not_a_text.
    Qed.
    Lemma sim_emphasis_cond : sim (flat_map ai)
      (conditional_inline (unhook (i_emphasis cfg)) (p_emphasis cfg0 rec0)) (conditional_inline (i_emphasis cfg) (p_emphasis cfg rec)).
    Proof.
      destruct HT as (_ & _ & _ & HE & _).
      assert (X : forall s, conditional_inline (unhook (i_emphasis cfg)) (p_emphasis cfg0 rec0) s =
        alt [conditional_inline (unhook (i_emphasis cfg)) (pmap (fun inner => IStrong [IEmphasis inner]) (alt [p_emph cfg0 rec0 (lit "***"); p_emph cfg0 rec0 (lit "___")]));
             conditional_inline (unhook (i_emphasis cfg)) (pmap IStrong (alt [p_emph cfg0 rec0 (lit "**"); p_emph cfg0 rec0 (lit "__")]));
             conditional_inline (unhook (i_emphasis cfg)) (pmap IEmphasis (alt [p_emph cfg0 rec0 (lit "*"); p_emph cfg0 rec0 (lit "_")]))] s).
      { intro s. unfold conditional_inline. destruct (i_emphasis cfg); cbn [unhook conditional]; cbn [alt]; unfold p_emphasis; cbn [alt];
        unfold or_else, fail, pmap, bind, ret; try reflexivity;
        repeat (match goal with |- context [p_emph cfg0 rec0 ?t s] => destruct (p_emph cfg0 rec0 t s) end; try reflexivity). }
      assert (Y : forall s, conditional_inline (i_emphasis cfg) (p_emphasis cfg rec) s =
        alt [conditional_inline (i_emphasis cfg) (pmap (fun inner => IStrong [IEmphasis inner]) (alt [p_emph cfg rec (lit "***"); p_emph cfg rec (lit "___")]));
             conditional_inline (i_emphasis cfg) (pmap IStrong (alt [p_emph cfg rec (lit "**"); p_emph cfg rec (lit "__")]));
             conditional_inline (i_emphasis cfg) (pmap IEmphasis (alt [p_emph cfg rec (lit "*"); p_emph cfg rec (lit "_")]))] s).
      { intro s. unfold conditional_inline. destruct (i_emphasis cfg); cbn [unhook conditional]; cbn [alt]; unfold p_emphasis; cbn [alt];
        unfold or_else, fail, value, pmap, bind, ret; try reflexivity;
        repeat (match goal with |- context [p_emph cfg rec ?t s] => destruct (p_emph cfg rec t s) end; try reflexivity). }
      intro s. rewrite X, Y. revert s.
      change (sim (flat_map ai)
        (alt [conditional_inline (unhook (i_emphasis cfg)) (pmap (fun inner => IStrong [IEmphasis inner]) (alt [p_emph cfg0 rec0 (lit "***"); p_emph cfg0 rec0 (lit "___")]));
             conditional_inline (unhook (i_emphasis cfg)) (pmap IStrong (alt [p_emph cfg0 rec0 (lit "**"); p_emph cfg0 rec0 (lit "__")]));
             conditional_inline (unhook (i_emphasis cfg)) (pmap IEmphasis (alt [p_emph cfg0 rec0 (lit "*"); p_emph cfg0 rec0 (lit "_")]))])
        (alt [conditional_inline (i_emphasis cfg) (pmap (fun inner => IStrong [IEmphasis inner]) (alt [p_emph cfg rec (lit "***"); p_emph cfg rec (lit "___")]));
             conditional_inline (i_emphasis cfg) (pmap IStrong (alt [p_emph cfg rec (lit "**"); p_emph cfg rec (lit "__")]));
             conditional_inline (i_emphasis cfg) (pmap IEmphasis (alt [p_emph cfg rec (lit "*"); p_emph cfg rec (lit "_")]))])).
      apply sim_alt. repeat apply Forall2_cons1; try constructor.
      - apply sim_cond with (g := fun i => match i with IStrong [IEmphasis c] => IStrong [IEmphasis (ais c)] | i => i end).
        + eapply sim_pmap; [apply sim_alt; repeat apply Forall2_cons1; try constructor; apply sim_emph|]. reflexivity.
        + eapply outs_pmap; [apply outs_true|]. intros c _. cbn [act_inline flat_map]. rewrite app_nil_r. apply HE.
      - apply sim_cond with (g := fun i => match i with IStrong c => IStrong (ais c) | i => i end).
        + eapply sim_pmap; [apply sim_alt; repeat apply Forall2_cons1; try constructor; apply sim_emph|]. reflexivity.
        + eapply outs_pmap; [apply outs_true|]. reflexivity.
      - apply sim_cond with (g := inner).
        + eapply sim_pmap; [apply sim_alt; repeat apply Forall2_cons1; try constructor; apply sim_emph|]. reflexivity.
        + eapply outs_pmap; [apply outs_true|]. reflexivity.
    Qed.
    Lemma sim_inline : sim (flat_map ai) (p_inline cfg0 rec0) (p_inline cfg rec).
    Proof.
      apply sim_alt. repeat apply Forall2_cons1; try constructor.
      - apply sim_cond with (g := fun i => i); [apply eqp_refl|]. eapply outs_pmap; [apply outs_true|]. reflexivity.
      - apply sim_cond with (g := inner); [eapply sim_pmap; [apply sim_inline_link|]; reflexivity|].
        eapply outs_pmap; [apply outs_true|]. intros [d t c] _. reflexivity.
      - apply sim_cond with (g := fun i => i); [apply eqp_refl|]. eapply outs_pmap; [apply outs_true|]. reflexivity.
      - apply sim_cond with (g := inner); [apply sim_reference_link|]. apply outs_alt. repeat apply Forall_cons1; try constructor.
        + apply outs_bind_t; intro. apply outs_bind_t; intro. apply outs_ret. reflexivity.
        + eapply outs_pmap; [apply outs_true|]. reflexivity.
        + eapply outs_pmap; [apply outs_true|]. reflexivity.
      - apply sim_cond with (g := fun i => i); [apply eqp_refl|]. eapply outs_pmap; [apply outs_true|]. reflexivity.
      - apply sim_cond with (g := fun i => i); [apply eqp_refl|]. apply outs_bind_t; intro. apply outs_bind_t; intros [d t].
        apply outs_ret. reflexivity.
      - apply sim_cond with (g := fun i => i); [apply eqp_refl|]. eapply outs_pmap; [apply outs_true|]. reflexivity.
      - intro s. unfold p_environment_variable, pmap, bind at 1 2 3 4, ret.
        now destruct (verify _ is_likely_env_var s).
      - apply sim_emphasis_cond.
      - apply sim_cond with (g := inner); [apply sim_strikethrough|]. do 3 (apply outs_bind_t; intro).
        eapply outs_pmap; [apply outs_true|]. reflexivity.
      - destruct HT as (E & _). unfold p_custom_inline. rewrite E. apply sim_fail.
      - apply sim_cond with (g := fun i => i); [apply sim_text|]. eapply outs_pmap; [apply outs_true|].
        intros l _. destruct HT as (_ & _ & E & _). destruct (i_text cfg); try discriminate; reflexivity.
    Qed.
  End R.
  Lemma sim_merge : forall ll, mrg (concat (map (flat_map ai) ll)) = ais (mrg (concat ll)).
  Proof.
    intro ll. unfold act_inlines. rewrite merge_flat by reflexivity. f_equal.
    induction ll as [|l ll IH]; [reflexivity|]. cbn [concat map]. now rewrite flat_map_app, IH.
  Qed.
  Lemma sim_inline_many1_f : forall f, sim ais (inline_many1_f cfg0 f) (inline_many1_f cfg f).
  Proof.
    induction f as [|f IH]; [intro; reflexivity|]. cbn [inline_many1_f].
    eapply sim_pmap; [apply sim_many1, sim_inline, IH|]. apply sim_merge.
  Qed.
  Lemma sim_inline_many1 : sim ais (inline_many1 cfg0) (inline_many1 cfg).
  Proof. intro s. apply sim_inline_many1_f. Qed.
  Lemma sim_inline_many0 : sim ais (inline_many0 cfg0) (inline_many0 cfg).
  Proof.
    intro s. unfold inline_many0.
    refine (sim_pmap _ _ _ _ (map (flat_map ai)) ais _ _ _ _ _ sim_merge s).
    apply sim_many0, sim_inline, sim_inline_many1_f.
  Qed.

  (** ** Blocks *)
  Definition act_heading (h : heading) : heading := Heading (h_kind h) (ais (h_content h)).
  Lemma sim_heading_v1 : sim act_heading (p_heading_v1 cfg0) (p_heading_v1 cfg).
  Proof.
    do 3 (apply sim_bind_id; [apply eqp_refl|]; intro).
    eapply sim_bind; [apply sim_nested, sim_inline_many0|]. intro c. now apply sim_ret.
  Qed.
  Definition act_def (l : link_definition) := LinkDefinition (ais (ld_label l)) (ld_destination l) (ld_title l).
  Lemma sim_link_definition : sim act_def (p_link_definition cfg0) (p_link_definition cfg).
  Proof.
    eapply sim_bind; [eapply sim_preceded; [apply eqp_refl|apply sim_link_label, sim_inline_many1]|]. intro l.
    do 5 (apply sim_bind_id; [apply eqp_refl|]; intro). now apply sim_ret.
  Qed.
  Lemma sim_table_row : sim (map ais) (p_table_row cfg0) (p_table_row cfg).
  Proof.
    apply sim_line_terminated. eapply sim_preceded; [apply eqp_refl|]. eapply sim_preceded; [apply eqp_refl|].
    eapply sim_terminated; [|apply eqp_refl]. apply sim_sep1; [apply eqp_refl|].
    apply sim_bind_id; [apply eqp_refl|]. intro. apply sim_nested, sim_inline_many0.
  Qed.
  Definition act_table (t : table) := Table (map (map ais) (t_rows t)) (t_alignments t).
  Lemma map_repeat' : forall A B (f : A -> B) x n, map f (repeat x n) = repeat (f x) n.
  Proof. intros A B f x n. induction n; [reflexivity|]. cbn. now f_equal. Qed.
  Lemma resize_map : forall n row, resize_row n (map ais row) = map ais (resize_row n row).
  Proof.
    intros n row. unfold resize_row. rewrite map_app, firstn_map, map_length. f_equal.
    rewrite map_repeat'. reflexivity.
  Qed.
  Lemma sim_table : sim act_table (p_table cfg0) (p_table cfg).
  Proof.
    eapply sim_bind; [apply sim_table_row|]. intro h. apply sim_bind_id; [apply eqp_refl|]. intro al.
    rewrite map_length. destruct (negb _); [apply sim_fail|].
    eapply sim_bind; [apply sim_many0; eapply sim_pmap; [apply sim_table_row|]; intro; apply resize_map|].
    intro rows. now apply sim_ret.
  Qed.

  Section RB.
    Variables rec0 rec : parser (list block).
    Hypothesis Hrec : sim (flat_map ab) rec0 rec.
    Lemma concat_flat : forall ll, concat (map (flat_map ab) ll) = flat_map ab (concat ll).
    Proof. induction ll as [|l ll IH]; [reflexivity|]. cbn [concat map]. now rewrite flat_map_app, IH. Qed.
    Lemma sim_nested0 : forall c, sim (flat_map ab) (pmap (@concat _) (nested (many0 rec0) c)) (pmap (@concat _) (nested (many0 rec) c)).
    Proof. intro. eapply sim_pmap; [apply sim_nested, sim_many0, Hrec|]. apply concat_flat. Qed.
    Lemma sim_nested1 : forall c, sim (flat_map ab) (pmap (@concat _) (nested (many1 rec0) c)) (pmap (@concat _) (nested (many1 rec) c)).
    Proof. intro. eapply sim_pmap; [apply sim_nested, sim_many1, Hrec|]. apply concat_flat. Qed.
    Lemma sim_blockquote : sim (flat_map ab) (p_blockquote rec0) (p_blockquote rec).
    Proof. apply sim_bind_id; [apply eqp_refl|]. intro. apply sim_nested1. Qed.
    Lemma sim_alert : sim (map (fun b => match b with BGitHubAlert (GitHubAlert t bs) => BGitHubAlert (GitHubAlert t (flat_map ab bs)) | b => b end))
      (p_github_alert cfg0 rec0) (p_github_alert cfg rec).
    Proof.
      apply sim_bind_id; [apply eqp_refl|]. intro fl. change (parse_alert_marker cfg0) with (parse_alert_marker cfg).
      destruct (parse_alert_marker _ _); [|apply sim_fail]. apply sim_bind_id; [apply eqp_refl|]. intro ls. cbv zeta.
      eapply (sim_bind _ _ _ _ (flat_map ab)).
      - destruct (join _ _); [now apply sim_ret|apply sim_nested1].
      - intro bs. now apply sim_ret.
    Qed.
    Definition act_item (it : list_item) : list_item := ListItem (li_task it) (flat_map ab (li_blocks it)).
    Lemma sim_list_item : sim (fun x => (fst x, act_item (snd x))) (p_list_item rec0) (p_list_item rec).
    Proof.
      apply sim_bind_id; [apply eqp_refl|]. intros [[k t] c]. eapply sim_bind; [apply sim_nested0|]. intro bs. now apply sim_ret.
    Qed.
    Definition act_list (l : mdlist) : mdlist := MkList (l_kind l) (map act_item (l_items l)).
    Lemma sim_list : sim act_list (p_list rec0) (p_list rec).
    Proof.
      eapply sim_bind; [apply sim_many1, sim_list_item|]. intros [|[k it] items]; [apply sim_fail|]. apply sim_ret.
      unfold act_list. cbn. f_equal. f_equal. rewrite !map_map. reflexivity.
    Qed.
    Definition act_fn (f : footnote_definition) : footnote_definition := FootnoteDefinition (fd_label f) (flat_map ab (fd_blocks f)).
    Lemma sim_fn : sim act_fn (p_footnote_definition rec0) (p_footnote_definition rec).
    Proof.
      apply sim_bind_id; [apply eqp_refl|]. intros [l c]. eapply sim_bind; [apply sim_nested0|]. intro bs. now apply sim_ret.
    Qed.
    Lemma sim_line_start : eqp (p_is_paragraph_line_start cfg0 rec0) (p_is_paragraph_line_start cfg rec).
    Proof.
      eapply sim_peek, (sim_not _ _ (fun x => x)), sim_alt. repeat apply Forall2_cons1; try constructor; try (apply sim_cond_unit); try apply eqp_refl.
      - eapply sim_unit, sim_heading_v1.
      - eapply sim_unit, sim_blockquote.
      - eapply sim_unit, sim_list_item.
      - eapply sim_unit, sim_link_definition.
      - eapply sim_unit, sim_fn.
      - eapply sim_unit, sim_table.
      - destruct HT as (_ & E & _). unfold p_custom_block. rewrite E. apply eqp_refl.
    Qed.
    Lemma sim_paragraph : forall b, sim ais (p_paragraph cfg0 rec0 b) (p_paragraph cfg rec b).
    Proof.
      intro b. apply sim_bind_id; [apply eqp_refl|]. intro ls. eapply sim_bind.
      - apply sim_line_terminated, sim_sep0; [apply eqp_refl|]. eapply sim_preceded; [apply sim_line_start|apply eqp_refl].
      - intro rl. rewrite map_id. apply sim_nested, sim_inline_many1.
    Qed.
    Definition inner_block (b : block) : block :=
      match b with
      | BParagraph c => BParagraph (ais c)
      | BHeading h => BHeading (act_heading h)
      | BBlockQuote bs => BBlockQuote (flat_map ab bs)
      | BList l => BList (act_list l)
      | BFootnoteDefinition f => BFootnoteDefinition (act_fn f)
      | BDefinition d => BDefinition (act_def d)
      | BTable t => BTable (act_table t)
      | b => b
      end.
    Lemma sim_hv2 : sim inner_block (p_heading_v2_or_paragraph cfg0 rec0) (p_heading_v2_or_paragraph cfg rec).
    Proof.
      eapply sim_bind; [apply sim_paragraph|]. intro c. apply sim_bind_id; [apply eqp_refl|]. intros [l|]; now apply sim_ret.
    Qed.
    Lemma sim_cond_vec : forall b p q,
      sim (map (fun b => match b with BGitHubAlert (GitHubAlert t bs) => BGitHubAlert (GitHubAlert t (flat_map ab bs)) | b => b end)) p q ->
      outs (fun l => exists t bs, l = [BGitHubAlert (GitHubAlert t bs)]) p -> b = b_github_alert cfg ->
      sim (flat_map ab) (conditional_block_vec (unhook b) p) (conditional_block_vec b q).
    Proof.
      intros b p q H HO Eb s.
      assert (X : forall r a, p s = Ok r a -> exists t bs, a = [BGitHubAlert (GitHubAlert t bs)]) by (intros; eapply HO; eassumption).
      destruct b; cbn [conditional_block_vec unhook]; try reflexivity; unfold value, pmap, bind, ret; rewrite H;
      destruct (p s) as [r a| |]; cbn [rmap]; try reflexivity; destruct (X r a eq_refl) as (t & bs & ->);
      cbn [map flat_map act_block app]; unfold act_alert; rewrite <- Eb; reflexivity.
    Qed.
    Lemma sim_block : sim (flat_map ab) (p_block cfg0 rec0) (p_block cfg rec).
    Proof.
      eapply sim_preceded; [apply eqp_refl|]. 
      assert (PS : b_paragraph cfg <> Ignore -> forall c, act BEmpty (paragraph_switch cfg) (BParagraph c) = act BEmpty (b_paragraph cfg) (BParagraph c)).
      { intros Hp c. destruct HT as (_ & _ & _ & _ & HP). unfold paragraph_switch.
        destruct (b_heading_v2 cfg) eqn:E; try reflexivity; apply HP; congruence. }
      apply sim_alt. repeat apply Forall2_cons1; try constructor.
      - apply sim_cond with (g := fun b => b); [apply eqp_refl|]. eapply outs_pmap; [apply outs_true|]. reflexivity.
      - apply sim_cond with (g := inner_block); [eapply sim_pmap; [apply sim_heading_v1|]; reflexivity|].
        eapply (outs_pmap _ _ (fun h => exists n, h_kind h = Atx n)).
        + do 4 (apply outs_bind_t; intro). apply outs_ret. cbn. eauto.
        + intros [k c] [n E]. cbn in E. subst k. reflexivity.
      - intro s. destruct (b_heading_v2 cfg) eqn:E0.
        2: { change (b_heading_v2 cfg0) with (unhook (b_heading_v2 cfg)). change (b_paragraph cfg0) with (unhook (b_paragraph cfg)). rewrite E0. reflexivity. }
        all: rewrite <- E0; revert s; change (sim (flat_map ab)
           (conditional_block (unhook (b_heading_v2 cfg)) (p_heading_v2_or_paragraph cfg0 rec0))
           (conditional_block (b_heading_v2 cfg) (p_heading_v2_or_paragraph cfg rec)));
          (apply sim_cond with (g := inner_block); [apply sim_hv2|]);
          apply outs_bind_t; intro c; apply outs_bind_t; intros [l|]; apply outs_ret; try reflexivity;
          cbn [act_block inner_block]; unfold paragraph_switch; now rewrite E0.
      - apply sim_cond with (g := fun b => b); [apply eqp_refl|]. eapply outs_pmap; [apply outs_true|]. reflexivity.
      - apply sim_cond_vec; [apply sim_alert| |reflexivity].
        apply outs_bind_t. intro. destruct (parse_alert_marker _ _); [|apply outs_fail]. apply outs_bind_t. intro. cbv zeta.
        apply outs_bind_t. intro. apply outs_ret. eauto.
      - apply sim_cond with (g := inner_block); [eapply sim_pmap; [apply sim_blockquote|]; reflexivity|].
        eapply outs_pmap; [apply outs_true|]. reflexivity.
      - apply sim_cond with (g := inner_block); [eapply sim_pmap; [apply sim_list|]; reflexivity|].
        eapply outs_pmap; [apply outs_true|]. reflexivity.
      - apply sim_cond with (g := fun b => b); [apply eqp_refl|]. eapply outs_pmap; [apply outs_true|]. reflexivity.
      - apply sim_cond with (g := inner_block); [eapply sim_pmap; [apply sim_fn|]; reflexivity|].
        eapply outs_pmap; [apply outs_true|]. intros [l bs] _. reflexivity.
      - apply sim_cond with (g := inner_block); [eapply sim_pmap; [apply sim_link_definition|]; reflexivity|].
        eapply outs_pmap; [apply outs_true|]. intros [l d t] _. reflexivity.
      - apply sim_cond with (g := inner_block); [eapply sim_pmap; [apply sim_table|]; reflexivity|].
        eapply outs_pmap; [apply outs_true|]. intros [rows al] _. reflexivity.
      - destruct HT as (_ & E & _). unfold p_custom_block. rewrite E. apply sim_fail.
      - intro s. destruct (b_paragraph cfg) eqn:E0.
        2: { change (b_heading_v2 cfg0) with (unhook (b_heading_v2 cfg)). change (b_paragraph cfg0) with (unhook (b_paragraph cfg)). rewrite E0. reflexivity. }
        all: rewrite <- E0; revert s; change (sim (flat_map ab)
           (conditional_block (unhook (b_paragraph cfg)) (pmap BParagraph (p_paragraph cfg0 rec0 false)))
           (conditional_block (b_paragraph cfg) (pmap BParagraph (p_paragraph cfg rec false))));
          (apply sim_cond with (g := inner_block); [eapply sim_pmap; [apply sim_paragraph|]; reflexivity|]);
          (eapply outs_pmap; [apply outs_true|]); intros c _; cbn [act_block inner_block]; rewrite E0; apply PS; discriminate.
    Qed.
  End RB.
  Lemma sim_block_f : forall f, sim (flat_map ab) (block_f cfg0 f) (block_f cfg f).
  Proof. induction f as [|f IH]; [intro; reflexivity|]. cbn [block_f]. now apply sim_block. Qed.
  Theorem parse_hooks : forall s,
    parse_markdown cfg s = rmap (act_document mrg cfg) (parse_markdown cfg0 s).
  Proof.
    intro s. unfold parse_markdown, p_document.
    refine (sim_pmap _ _ _ _ (map (flat_map ab)) (act_document mrg cfg) _ _ _ _ _ _ s).
    - eapply sim_terminated; [apply sim_many0, sim_block_f|apply eqp_refl].
    - intro ll. unfold act_document. cbn [d_blocks]. f_equal. apply concat_flat.
  Qed.
End Hooks.
