(** Proof of C94. *)
From Coq Require Import String Lia.
From Verif Require Import HtmlFacts HtmlView SpecSafeTex.
Import ListNotations.
Open Scope list_scope.

Definition fine (l : list str) : Prop := Forall (fun n => In n formatting) l.
Lemma scan_app : forall a b st l, scan st l (a ++ b) =
  let '(st1, l1, x) := scan st l a in let '(r, y) := scan st1 l1 b in (r, x ++ y).
Proof.
  induction a as [|c a IH]; intros b st l; cbn [app scan]; [now destruct (scan st l b) as [[? ?] ?]|].
  destruct (read st c) as [st1 x]. rewrite IH. destruct (scan st1 _ a) as [[st2 l2] y]. destruct (scan st2 l2 b) as [r z]. now rewrite <- !app_assoc.
Qed.
(** fragments: from plain text to plain text *)
Definition good (t : list sch) : Prop := forall s, layout t s -> forall l, exists l' x, scan Plain l s = (Plain, l', x) /\ fine x.
Lemma good_nil : good [].
Proof. intros s H l. inversion H. exists l, []. split; [reflexivity|constructor]. Qed.
Lemma good_app : forall a b, good a -> good b -> good (a ++ b).
Proof.
  intros a b A B s H l. apply Forall2_app_inv_l in H as (s1 & s2 & H1 & H2 & ->). destruct (A _ H1 l) as (l1 & x1 & E1 & F1). destruct (B _ H2 l1) as (l2 & x2 & E2 & F2).
  exists l2, (x1 ++ x2). rewrite scan_app, E1, E2. split; [reflexivity|]. apply Forall_app. now split.
Qed.
Lemma layout_chs : forall a s, layout (chs a) s -> s = a.
Proof. induction a as [|c a IH]; intros s H; inversion H as [|? ? ? ? X Y]; [reflexivity|]. inversion X. f_equal. now apply IH. Qed.
Lemma layout_self : forall a, layout (chs a) a.
Proof. induction a; constructor; [constructor|assumption]. Qed.
Definition check (a : str) : bool :=
  forallb (fun l => match scan Plain l a with (Plain, _, x) => forallb (fun n => existsb (str_eqb n) formatting) x | _ => false end) [true; false].
Lemma good_check : forall a, check a = true -> good (chs a).
Proof.
  intros a H s E l. apply layout_chs in E. subst s. unfold check in H. cbn [forallb] in H. rewrite Bool.andb_true_r in H. apply andb_prop in H as [H1 H2].
  assert (X : match scan Plain l a with (Plain, _, x) => forallb (fun n => existsb (str_eqb n) formatting) x | _ => false end = true) by (destruct l; assumption).
  destruct (scan Plain l a) as [[[]] x]; try discriminate. eexists _, x. split; [reflexivity|]. apply Forall_forall. intros n I. apply (proj1 (forallb_forall _ _) X) in I. apply existsb_exists in I as (y & J & E). apply str_eqb_eq in E. now subst.
Qed.
Lemma good_plain : forall a, Forall (fun c => c <> ch "\" /\ c <> ch "^") a -> good (chs a).
Proof.
  intros a H. induction H as [|c a [N1 N2] _ IH]; [exact good_nil|]. change (chs (c :: a)) with ([Ch c] ++ chs a). apply good_app; [|exact IH].
  intros s E l. apply (layout_chs [c]) in E. subst s. cbn [scan read]. destruct (N.eqb_spec c (ch "\")); [contradiction|]. unfold circumflex. destruct (N.eqb_spec c (ch "^")); [contradiction|]. eexists _, []. split; [reflexivity|constructor].
Qed.
Lemma good_soft : good [Soft].
Proof. intros s H l. inversion H as [|? ? ? ? X Y]; subst. inversion Y; subst. inversion X; subst; (eexists _, []; split; [reflexivity|constructor]). Qed.
Lemma good_esc_char : forall c, good (chs (escape_latex_char c)).
Proof.
  intros c. unfold escape_latex_char. repeat match goal with |- context [if N.eqb c ?k then _ else _] => destruct (N.eqb_spec c k); [apply good_check; vm_compute; reflexivity|] end.
  apply good_plain. constructor; [|constructor]. split; assumption.
Qed.
Lemma chs_app : forall a b, chs (a ++ b) = chs a ++ chs b.
Proof. intros. apply map_app. Qed.
Lemma good_esc : forall s, good (esc s).
Proof. induction s as [|c s IH]; [exact good_nil|]. unfold esc, escape_latex in *. cbn [flat_map]. rewrite chs_app. apply good_app; [apply good_esc_char|exact IH]. Qed.
Lemma good_flow : forall s, good (flow s).
Proof.
  induction s as [|c s IH]; [exact good_nil|]. cbn [flow]. destruct (is_whitespace c).
  - destruct s as [|d s]; [exact good_soft|]. destruct (is_whitespace d); [exact IH|]. apply (good_app [Soft]); [exact good_soft|exact IH].
  - apply good_app; [apply good_esc_char|exact IH].
Qed.
Lemma good_braces : forall t, good t -> good (braces t).
Proof. intros t H. unfold braces. apply good_app; [apply good_check; reflexivity|]. apply good_app; [exact H|apply good_check; reflexivity]. Qed.
Lemma good_cmd : forall n t, check (lit "\" ++ lit n ++ lit "{") = true -> good t -> good (cmd_ n t).
Proof.
  intros n t C H. unfold cmd_, braces, cs. rewrite !app_assoc, <- !chs_app, <- !app_assoc. apply good_app; [now apply good_check|]. apply good_app; [exact H|apply good_check; reflexivity].
Qed.
Lemma good_flat : forall A (f : A -> list sch) l, Forall (fun x => good (f x)) l -> good (flat_map f l).
Proof. intros A f l H. induction H; [exact good_nil|]. cbn [flat_map]. now apply good_app. Qed.
Lemma good_sep : forall sep l, good sep -> Forall good l -> good (sep_by sep l).
Proof. intros sep l S H. induction H as [|x l X _ IH]; [exact good_nil|]. cbn [sep_by]. destruct l; [exact X|]. apply good_app; [exact X|]. now apply good_app. Qed.
Lemma good_digits : forall n, good (chs (dec n)).
Proof.
  intros n. apply good_plain. apply Forall_forall. intros c I. apply (proj1 (forallb_forall _ _) (dec_is_digits n)) in I. split; intros ->; discriminate.
Qed.
Lemma good_white : forall s, forallb is_whitespace s = true -> good (chs (map (fun c => if N.eqb c 10 then 32%N else c) s)).
Proof.
  intros s H. apply good_plain. apply Forall_map. apply Forall_forall. intros c I. apply (proj1 (forallb_forall _ _) H) in I. destruct (N.eqb_spec c 10); [split; discriminate|]. split; intros ->; discriminate.
Qed.
Ltac con := apply good_check; vm_compute; reflexivity.

Section View.
  Variable cfg : latex_config.
  Variable num : str -> option N.
  Variable def : list inline -> option link_definition.
  Lemma good_inline : forall i, good (tex_inline num def i).
  Proof.
    induction i as [s| |s|s|d t c IH|l t IHl IH|[d t a]|c IH|c IH|c IH|s|s|] using inline_ind'; cbn [tex_inline link_destination link_children link_title lr_label lr_text image_destination image_alt];
      try (apply good_cmd; [vm_compute; reflexivity|]; try apply good_esc; now apply good_flat).
    - destruct (forallb is_whitespace s) eqn:E; [now apply good_white|apply good_flow].
    - change (chs (lit "\\") ++ [Ch 10%N]) with (chs (lit "\\" ++ [10%N])). con.
    - apply good_esc.
    - apply good_app; [apply good_cmd; [vm_compute; reflexivity|apply good_esc]|]. apply good_app; [apply good_braces; now apply good_flat|]. destruct t; [apply good_cmd; [vm_compute; reflexivity|apply good_esc]|exact good_nil].
    - destruct (def l).
      + apply good_app; [apply good_cmd; [vm_compute; reflexivity|apply good_esc]|]. apply good_braces; now apply good_flat.
      + apply good_app; [con|]. apply good_app; [now apply good_flat|]. apply good_app; [con|]. apply good_app; [now apply good_flat|con].
    - apply good_app; [con|]. apply good_app; [apply good_braces, good_esc|]. destruct a; [exact good_nil|]. apply good_cmd; [vm_compute; reflexivity|apply good_esc].
    - destruct (num s) as [n|]; [|apply good_app; [con|]; apply good_app; [apply good_esc|con]]. apply good_cmd; [vm_compute; reflexivity|]. rewrite !chs_app. apply good_app; [con|]. apply good_app; [apply good_digits|con].
    - exact good_nil.
  Qed.
  Lemma good_inlines : forall l, good (tex_inlines num def l).
  Proof. intros l. apply good_flat. apply Forall_forall. intros i _. apply good_inline. Qed.
End View.

Lemma good_nl : good nl.
Proof. change nl with (chs [10%N]). con. Qed.
Lemma good_env : forall n opt t, check (env_begin (lit n)) = true -> check (10%N :: env_end (lit n)) = true -> good opt -> good t -> good (env_ n opt t).
Proof.
  intros n opt t B E O T. unfold env_. apply good_app; [now apply good_check|]. apply good_app; [exact O|]. apply good_app; [exact good_nl|]. apply good_app; [exact T|]. change (nl ++ chs (env_end (lit n))) with (chs (10%N :: env_end (lit n))). now apply good_check.
Qed.
Lemma good_columns : forall al, good (chs (columns al)).
Proof. intros al. apply good_plain. apply Forall_map. apply Forall_forall. intros [] _; split; discriminate. Qed.
Lemma good_spec : forall a al b, check a = true -> check b = true -> good (chs (a ++ columns al ++ b)).
Proof. intros. rewrite !chs_app. apply good_app; [now apply good_check|]. apply good_app; [apply good_columns|now apply good_check]. Qed.

Section Blocks.
  Variable cfg : latex_config.
  Variable num : str -> option N.
  Variable def : list inline -> option link_definition.
  Lemma good_row : forall r, good (tex_row num def r).
  Proof. intros r. unfold tex_row. apply good_app; [|con]. apply good_sep; [con|]. apply Forall_map. apply Forall_forall. intros c _. apply good_inlines. Qed.
  Lemma good_rule : forall n t, check (lit n ++ [10%N]) = true -> good t -> good (cs n ++ nl ++ t).
  Proof. intros n t C T. unfold cs. rewrite app_assoc. change nl with (chs [10%N]). rewrite <- chs_app. apply good_app; [now apply good_check|exact T]. Qed.
  Lemma good_rows : forall rule tail t, check (lit rule ++ [10%N]) = true -> good tail -> good
    match t_rows t with
    | [] => []
    | h :: rs => tex_row num def h ++ nl ++ cs rule ++ nl ++ flat_map (fun r => tex_row num def r ++ tail ++ nl) rs
    end.
  Proof.
    intros rule tail t C T. destruct (t_rows t) as [|h rs]; [exact good_nil|]. apply good_app; [apply good_row|]. apply good_app; [exact good_nl|]. apply good_rule; [exact C|]. apply good_flat. apply Forall_forall. intros r _. apply good_app; [apply good_row|]. apply good_app; [exact T|exact good_nl].
  Qed.
  Lemma good_table : forall t, good (tex_table cfg num def t).
  Proof.
    intros t. unfold tex_table. destruct (lc_table_style cfg).
    - apply good_env; [vm_compute; reflexivity|vm_compute; reflexivity|apply good_spec; reflexivity|]. apply good_rows; [vm_compute; reflexivity|exact good_nil].
    - apply good_env; [vm_compute; reflexivity|vm_compute; reflexivity|apply good_spec; vm_compute; reflexivity|]. apply good_rows; [vm_compute; reflexivity|con].
    - unfold env_. apply good_app; [con|]. apply good_app; [apply good_spec; reflexivity|]. apply good_app; [exact good_nl|]. rewrite <- !app_assoc. apply good_rule; [vm_compute; reflexivity|]. apply good_app; [apply good_rows; [vm_compute; reflexivity|exact good_nil]|]. apply good_rule; [vm_compute; reflexivity|con].
  Qed.
  Lemma good_alert : forall t, (forall x, t = Custom x -> Forall (fun c => is_alnum c = true \/ c = ch "_") x) -> good (chs (alert_name t)).
  Proof.
    intros t H. destruct t as [| | | | |x]; try con. apply good_plain. eapply Forall_impl; [|exact (H _ eq_refl)]. cbn beta. intros c [A| ->]; [|split; discriminate]. split; intros ->; discriminate.
  Qed.
  Definition tame (b : block) : Prop := (forall c, b <> BCodeBlock c) /\
    forall x bs, b = BGitHubAlert (GitHubAlert (Custom x) bs) -> Forall (fun c => is_alnum c = true \/ c = ch "_") x.
  Lemma good_blocks : forall bs, Forall (fun b => Forall tame (block_preorder b) -> good (tex_block cfg num def b)) bs -> Forall tame (flat_map block_preorder bs) -> good (sep_by (nl ++ nl) (map (tex_block cfg num def) bs)).
  Proof.
    intros bs H T. apply good_sep; [apply good_app; exact good_nl|]. apply Forall_map. induction H as [|b bs X H IH]; [constructor|]. cbn [flat_map] in T. apply Forall_app in T as [T1 T2]. constructor; [now apply X|now apply IH].
  Qed.
  Lemma good_block : forall b, Forall tame (block_preorder b) -> good (tex_block cfg num def b).
  Proof.
    induction b as [c|h| |bs IH|k items IH|c|s|d|t|l bs IH|t bs IH|] using block_ind'; intros T.
    - apply good_inlines.
    - apply good_cmd; [|apply good_inlines]. destruct h as [[n|[]] c]; cbn [h_kind section_]; try (vm_compute; reflexivity). repeat match goal with |- context [if ?b then _ else _] => destruct b end; vm_compute; reflexivity.
    - apply good_cmd; [vm_compute; reflexivity|exact good_nil].
    - apply good_env; [vm_compute; reflexivity|vm_compute; reflexivity|exact good_nil|]. apply good_blocks; [exact IH|]. now inversion T.
    - apply good_env; [destruct k; vm_compute; reflexivity|destruct k; vm_compute; reflexivity|exact good_nil|]. cbn [l_items]. inversion T as [|? ? _ T']; subst. clear T. cbn [l_items] in T'.
      induction IH as [|it items X _ IH]; [exact good_nil|]. cbn [flat_map] in *. apply Forall_app in T' as [T1 T2]. apply good_app; [|now apply IH]. apply good_app; [con|]. apply good_app; [destruct (li_task it) as [[]|]; [con|con|exact good_nil]|]. apply good_app; [now apply good_blocks|exact good_nl].
    - inversion T as [|? ? [X _] _]. now destruct (X c).
    - apply good_esc.
    - exact good_nil.
    - apply good_table.
    - cbn [tex_block fd_label fd_blocks]. destruct (num l) as [n|]; [|exact good_nil]. apply good_cmd; [vm_compute; reflexivity|]. apply good_app; [rewrite !chs_app; apply good_app; [con|]; apply good_app; [apply good_digits|con]|]. apply good_blocks; [exact IH|]. now inversion T.
    - inversion T as [|? ? [_ X] T']; subst. cbn [ga_blocks] in T'. apply good_cmd; [vm_compute; reflexivity|]. cbn [ga_type ga_blocks]. apply good_app; [apply good_alert; intros x ->; now apply (X x bs)|]. apply good_app; [con|]. now apply good_blocks.
    - exact good_nil.
  Qed.
End Blocks.
Lemma good_view : forall cfg d, Forall tame (doc_blocks d) -> good (tex_view cfg d).
Proof. intros cfg d T. apply good_blocks; [|exact T]. apply Forall_forall. intros b _. apply good_block. Qed.
Lemma good_commands : forall t s, good t -> layout t s -> Forall (fun n => In n formatting) (commands s).
Proof. intros t s G L. destruct (G s L false) as (l & x & E & F). unfold commands. rewrite E, app_nil_r. exact F. Qed.
