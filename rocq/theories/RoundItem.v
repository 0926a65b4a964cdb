(** Texts that can stand in list items. *)
From Coq Require Import String Lia.
From Verif Require Import SpecBlock SyntaxFacts SyntaxBlock.
From Verif Require Export RoundShift RoundList RoundSettle SpecRound.
Import ListNotations.
Open Scope list_scope.
Local Notation len := (@List.length _).

(** ** Lines *)
Lemma In_line : forall o l, In l (split_lines o) -> exists b, stops b /\ (o = l ++ b \/ exists a, o = a ++ c_nl :: l ++ b).
Proof.
  intros o l I. rewrite <- (split_join o). induction (split_lines o) as [|x ls IH]; [destruct I|]. destruct ls as [|y ls].
  - destruct I as [->|[]]. exists []. split; [exact Logic.I|]. left. now rewrite app_nil_r.
  - rewrite join_cons by discriminate. destruct I as [->|I].
    + eexists. split; [|left; reflexivity]. reflexivity.
    + destruct (IH I) as (b & Hb & [E|(a & E)]); rewrite E; exists b; (split; [exact Hb|right]).
      * exists x. reflexivity.
      * exists (x ++ c_nl :: a). now rewrite <- app_assoc.
Qed.
Lemma split_joined : forall ls, ls <> [] -> split_lines (join [c_nl] ls) = flat_map split_lines ls.
Proof.
  intros ls N. induction ls as [|l ls IH]; [congruence|]. destruct ls as [|l2 ls]; [cbn; now rewrite app_nil_r|].
  rewrite join_cons by discriminate. cbn [app]. rewrite split_app2, IH by discriminate. reflexivity.
Qed.
Lemma split_blocks : forall os l, In l (split_lines (join [c_nl; c_nl] os)) -> l = [] \/ exists o, In o os /\ In l (split_lines o).
Proof.
  induction os as [|o os IH]; intros l I; [destruct I as [<-|[]]; now left|]. destruct os as [|o2 os]; [right; exists o; split; [now left|exact I]|].
  rewrite join_cons in I by discriminate. cbn [app] in I. rewrite split_app2 in I. apply in_app_or in I as [I|I]; [right; exists o; split; [now left|exact I]|].
  change (c_nl :: join [c_nl; c_nl] (o2 :: os)) with ([] ++ c_nl :: join [c_nl; c_nl] (o2 :: os)) in I. rewrite split_app in I by (intros []). destruct I as [<-|I]; [now left|].
  destruct (IH l I) as [->|(x & X & J)]; [now left|right; exists x; split; [now right|exact J]].
Qed.
Lemma split_indented : forall p n c, nl_free p -> split_lines (p ++ ind n c) = (p ++ head_line c) :: map (app (rep n c_sp)) (tl (split_lines c)).
Proof.
  intros p n c Hp. rewrite ind_lines, app_assoc.
  replace (flat_map (fun l => c_nl :: rep n c_sp ++ l) (tl (split_lines c))) with (flat_map (fun l => [c_nl] ++ l) (map (app (rep n c_sp)) (tl (split_lines c)))) by (rewrite flat_map_map; reflexivity).
  rewrite <- join_flat. pose proof (split_free c) as F. rewrite split_head in F. inversion F as [|? ? F1 F2]; subst. apply join_split; [discriminate|].
  constructor.
  - intro I. apply in_app_or in I as [I|I]; contradiction.
  - apply Forall_map. eapply Forall_impl; [|exact F2]. intros l L I. apply in_app_or in I as [I|I]; [|contradiction]. apply repeat_spec in I. discriminate.
Qed.

Lemma ind_0 : forall s, ind 0 s = s.
Proof. intros s. pose proof (pre_ind 0 s) as E. rewrite pre_0 in E. symmetry. exact E. Qed.

(** ** Lines that are no thematic breaks *)
Definition ruled (l : str) : Prop := exists k c n w, 3 <= n /\ In c (lit "-_*") /\ all is_space w /\ l = rep k c_sp ++ rep n c ++ w.
Definition steady_line (l : str) : Prop := l <> [] /\ ~ ruled l.
Definition steady (o : str) : Prop := Forall steady_line (split_lines o).
Lemma rule_char : forall c, In c (lit "-_*") -> line_char c /\ c <> c_sp.
Proof. intros c I. cbn in I. destruct I as [<-|[<-|[<-|[]]]]; repeat split; discriminate. Qed.
Lemma spaces_head : forall n k s t, no_space s -> no_space t -> rep n c_sp ++ s = rep k c_sp ++ t -> n = k /\ s = t.
Proof.
  induction n as [|n IH]; intros [|k] s t Hs Ht E; cbn [rep repeat app] in E; [now split|exfalso; eapply Hs; exact E|exfalso; symmetry in E; eapply Ht; exact E|].
  injection E as E. destruct (IH k s t Hs Ht E) as [-> ->]. now split.
Qed.
Lemma ruled_spaces : forall n l, ruled (rep n c_sp ++ l) -> ruled l.
Proof.
  intros n l (k & c & m & w & Hm & Hc & Hw & E). destruct (spaces_split l) as (a & t & -> & Ht).
  assert (NS : no_space (rep m c ++ w)) by (destruct m as [|m]; [lia|]; apply no_space_cons; apply rule_char, Hc).
  rewrite app_assoc in E. unfold rep in E at 1 2. rewrite <- repeat_app in E. fold (rep (n + a) c_sp) in E. apply spaces_head in E as [_ ->]; [|exact Ht|exact NS].
  exists a, c, m, w. auto.
Qed.
Lemma eol_cut : forall l w r m r', Forall line_char l -> Forall line_char w -> stops r -> line_end m r' -> l ++ r = w ++ m -> l = w.
Proof.
  induction l as [|c l IH]; intros w r m r' Hl Hw Hr He E.
  - destruct w as [|d w]; [reflexivity|]. exfalso. cbn [app] in E. subst r. cbn in Hr. subst d. inversion Hw as [|? ? [X _] _]. now apply X.
  - inversion Hl as [|? ? H1 H2]; subst. destruct w as [|d w].
    + exfalso. cbn [app] in E. destruct He as [e r0 [->| ->]|]; [| |discriminate]; cbn in E; injection E as -> _; destruct H1 as [X Y]; [now apply X|now apply Y].
    + cbn [app] in E. injection E as -> E. inversion Hw; subst. f_equal. eapply IH; eauto.
Qed.
Lemma space_line : forall w, all is_space w -> Forall line_char w.
Proof. intros w H. eapply Forall_impl; [|exact H]. intros c X. split; intros ->; discriminate. Qed.
Lemma steady_inner : forall n l, steady_line l -> Forall line_char l -> inner_line n l.
Proof.
  intros n l [N R] Hl. split; [exact N|]. split; [exact Hl|]. intros r Hr. apply (exact_err _ _ exact_thematic). intros (a & r' & H).
  inversion H as [k c m w e r0 Hk Hm Hc Hw He E]; subst. apply R. rewrite !app_assoc in E. apply eq_sym in E. eapply eol_cut in E; [| | |exact Hr|exact He].
  - apply (ruled_spaces n). rewrite E. exists k, c, m, w. rewrite <- app_assoc. auto.
  - apply Forall_app. split; [|exact Hl]. apply Forall_forall. intros x X. apply repeat_spec in X. subst. split; discriminate.
  - rewrite <- app_assoc. apply Forall_app. split; [|apply Forall_app; split; [|now apply space_line]]; apply Forall_forall; intros x X; apply repeat_spec in X; subst; [split; discriminate|now apply rule_char].
Qed.
Section Settled.
Variables (entities : str -> option str) (punct : char -> bool) (upper : char -> str).
Lemma steady_settled : forall o, RoundBlocks.settled entities punct upper o -> steady o.
Proof.
  intros o (_ & Q & S). apply Forall_forall. intros l I. destruct (In_line o l I) as (b & Hb & E).
  assert (Ql : RoundBlocks.quiet entities punct upper (l ++ b)) by (destruct E as [->|(a & ->)]; [exact Q|now apply (S a)]).
  destruct Ql as ((c & t & Ec & Hc) & Ql). apply white_inked in Hc. split.
  - intros ->. cbn [app] in Ec. subst b. cbn in Hb. subst c. destruct Hc as [[X _] _]. now apply X.
  - intros (k & d & n & w & Hn & Hd & Hw & ->). specialize (Ql 0 [] (Nat.le_0_l _) Logic.I). cbn [rep repeat app] in Ql. rewrite app_nil_r, ind_0 in Ql.
    assert (K : k = 0).
    { destruct k as [|k]; [reflexivity|]. cbn [rep repeat app] in Ec. injection Ec as <- _. destruct Hc as [_ X]. discriminate X. }
    subst k. cbn [rep repeat app] in Ql. apply alt_err_inv in Ql. inversion Ql as [|? ? _ Q1]; subst. inversion Q1 as [|? ? _ Q2]; subst. inversion Q2 as [|? ? Q3 _]; subst.
    change (p_thematic_break ((rep n d ++ w) ++ b) = Err) in Q3.
    assert (R : r_break_line ((rep n d ++ w) ++ b) HBreak (tl b)).
    { rewrite <- app_assoc. apply (R_break_line 0 d n w b (tl b)); auto. destruct b as [|x b]; [constructor|]. cbn in Hb. subst x. apply (end_eol [10%N]). now left. }
    apply (exact_ok _ _ exact_thematic _ tt) in R. congruence.
Qed.
(** no blank lines *)
Definition inky (l : str) : Prop := Exists (fun c => is_whitespace c = false) l.
Definition dense (o : str) : Prop := Forall inky (split_lines o).
Lemma dense_settled : forall o, RoundBlocks.settled entities punct upper o -> dense o.
Proof.
  intros o (_ & Q & S). apply Forall_forall. intros l I. destruct (In_line o l I) as (b & Hb & E).
  assert (Ql : RoundBlocks.quiet entities punct upper (l ++ b)) by (destruct E as [->|(a & ->)]; [exact Q|now apply (S a)]).
  destruct Ql as ((c & t & Ec & Hc) & _). destruct l as [|d l]; [|injection Ec as -> _; now constructor].
  cbn [app] in Ec. subst b. cbn in Hb. subst c. discriminate.
Qed.
End Settled.
Lemma inky_app : forall a b, inky b -> inky (a ++ b).
Proof. intros a b H. unfold inky. rewrite Exists_app. now right. Qed.
Lemma inky_front : forall a b, inky a -> inky (a ++ b).
Proof. intros a b H. unfold inky. rewrite Exists_app. now left. Qed.
Lemma inky_text : forall l, inky l -> forallb is_whitespace l = false.
Proof. intros l H. induction H as [c l H|c l H IH]; cbn [forallb]; [now rewrite H|]. rewrite IH. apply Bool.andb_false_r. Qed.
Lemma dense_app : forall a b, dense a -> dense b -> dense (a ++ c_nl :: b).
Proof. intros a b A B. unfold dense. rewrite split_app2. now apply Forall_app. Qed.
Lemma dense_one : forall l, nl_free l -> inky l -> dense l.
Proof. intros l F I. unfold dense. rewrite split_one by exact F. now constructor. Qed.
Lemma steady_none : forall n, 0 < n -> steady_line (rep n c_sp).
Proof.
  intros n H. split; [destruct n; [lia|discriminate]|]. intros (k & c & m & w & Hm & Hc & _ & E). destruct m as [|m]; [lia|].
  assert (I : In c (rep n c_sp)) by (rewrite E; apply in_or_app; right; now left). apply repeat_spec in I. now apply rule_char in Hc.
Qed.
Lemma steady_more : forall n l, steady_line l -> steady_line (rep n c_sp ++ l).
Proof. intros n l [N R]. split; [destruct n; [exact N|discriminate]|]. intro H. apply R. now apply ruled_spaces in H. Qed.
(** a line that begins with one character, another one behind it *)
Lemma steady_head : forall n c l, c <> c_sp -> (forall t, l <> c :: t) -> steady_line (rep n c_sp ++ c :: l).
Proof.
  intros n c l Hc Hl. apply steady_more. split; [discriminate|]. intros (k & d & m & w & Hm & Hd & _ & E).
  destruct k as [|k]; [|cbn in E; injection E as -> _; congruence]. destruct m as [|[|m]]; [lia|lia|]. cbn in E. injection E as -> E. now apply (Hl (rep m d ++ w)).
Qed.
Lemma steady_item : forall n os, Forall (fun o => steady o /\ Forall (Forall line_char) (split_lines o)) os -> Forall (fun o => starts_line (head_line o)) os -> item_texts n os.
Proof.
  intros n os F S. destruct os as [|o os]; [exact I|]. inversion F as [|? ? F1 F2]; subst. inversion S as [|? ? S1 S2]; subst.
  assert (P : forall x, steady x /\ Forall (Forall line_char) (split_lines x) -> Forall (inner_line n) (split_lines x)).
  { intros x [A B]. unfold steady in A. rewrite Forall_forall in *. intros l L. apply steady_inner; auto. }
  split.
  - specialize (P o F1). rewrite split_head in P. now inversion P.
  - clear -P F2 S2. induction os as [|x os IH]; [constructor|]. inversion F2; subst. inversion S2; subst. constructor; auto.
Qed.
(** ** The text of a list *)
Lemma ind_ind : forall k n s, ind k (ind n s) = ind (n + k) s.
Proof.
  intros k n s. induction s as [|c s IH]; [reflexivity|]. destruct (N.eqb_spec c c_nl) as [->|N].
  - rewrite !ind_nl, ind_app, IH, ind_free.
    + unfold rep. rewrite Nat.add_comm, repeat_app, <- app_assoc. reflexivity.
    + intro I. apply repeat_spec in I. discriminate.
  - rewrite !(ind_cons _ c) by exact N. now rewrite IH.
Qed.
Definition item_head (a : nat) (kind : list_kind) (k : nat) (task : option task_state) : str := rep a c_sp ++ marker kind k ++ c_sp :: task_text task.
Lemma item_parts : forall a n kind x, src_text a n kind x = item_head a kind (i_num x) (i_task x) ++ ind n (join [c_nl; c_nl] (i_texts x)).
Proof. intros. unfold src_text, item_head. rewrite <- !app_assoc. reflexivity. Qed.
Lemma marker_chars : forall kind k c, In c (marker kind k) -> is_digit c = true \/ In c (lit "-*+.").
Proof.
  intros [n|[]] k c I; cbn [marker] in I; try (right; cbn in *; tauto).
  apply in_app_or in I as [I|I]; [|right; cbn in *; tauto]. left. destruct (DecFacts.dec_numeral (n + N.of_nat k)) as (_ & D & _). now apply (proj1 (forallb_forall _ _) D).
Qed.
Lemma marker_line : forall kind k, Forall line_char (marker kind k) /\ nl_free (marker kind k).
Proof.
  assert (H : forall kind k c, In c (marker kind k) -> line_char c).
  { intros kind k c I. apply marker_chars in I as [I|I]; [split; intros ->; discriminate|]. cbn in I. intuition (subst; split; discriminate). }
  intros kind k. split; [apply Forall_forall; intros c; apply H|]. intro I. apply H in I as [I _]. now apply I.
Qed.
Lemma item_head_chars : forall a kind k task, Forall line_char (item_head a kind k task).
Proof.
  intros a kind k task. unfold item_head. apply Forall_app. split; [apply Forall_forall; intros x X; apply repeat_spec in X; subst; split; discriminate|].
  apply Forall_app. split; [apply marker_line|]. constructor; [split; discriminate|]. destruct task as [[]|]; repeat constructor; discriminate.
Qed.
Lemma line_free : forall l, Forall line_char l -> nl_free l.
Proof. intros l H I. rewrite Forall_forall in H. apply H in I as [I _]. now apply I. Qed.
Lemma pre_item : forall k a n kind x, pre k (src_text a n kind x) = src_text (k + a) (k + n) kind x.
Proof.
  intros k a n kind x. rewrite pre_ind, !item_parts, ind_app, ind_ind, (ind_free k (item_head _ _ _ _)) by (apply line_free, item_head_chars).
  rewrite app_assoc, (Nat.add_comm n k). f_equal. unfold item_head. rewrite app_assoc. f_equal. unfold rep. now rewrite <- repeat_app.
Qed.
Lemma pre_joined : forall k ls, ls <> [] -> pre k (join [c_nl] ls) = join [c_nl] (map (pre k) ls).
Proof.
  intros k ls N. induction ls as [|l ls IH]; [congruence|]. destruct ls as [|l2 ls]; [reflexivity|]. rewrite join_cons by discriminate. cbn [app]. rewrite pre_app, IH by discriminate.
  cbn [map]. rewrite (join_cons _ (pre k l)) by discriminate. reflexivity.
Qed.
Lemma pre_list : forall k a n kind xs, xs <> [] -> pre k (join [c_nl] (map (src_text a n kind) xs)) = join [c_nl] (map (src_text (k + a) (k + n) kind) xs).
Proof. intros k a n kind xs N. rewrite pre_joined by (intro E; apply map_eq_nil in E; contradiction). rewrite map_map. f_equal. apply map_ext. intros. apply pre_item. Qed.
(** the lines of a list are no thematic breaks *)
Lemma steady_first : forall a kind k u, steady_line (rep a c_sp ++ marker kind k ++ c_sp :: u).
Proof.
  intros a kind k u. apply steady_more. destruct (marker_head kind k) as (c & t & E & Hc & Hd). rewrite E. cbn [app]. destruct Hd as [Hd|Hd].
  - split; [discriminate|]. intros (j & d & m & w & Hm & Hr & _ & E2). destruct j as [|j]; [|cbn in E2; injection E2 as -> _; now apply inked_sp in Hc].
    destruct m as [|m]; [lia|]. cbn in E2. injection E2 as -> _. cbn in Hr. intuition (subst; discriminate).
  - change (c :: t ++ c_sp :: u) with (rep 0 c_sp ++ c :: t ++ c_sp :: u). apply steady_head; [now apply inked_sp|].
    destruct kind as [n|[]]; cbn [marker] in E; [exfalso|injection E as <- <-; intros ? X; discriminate X..].
    destruct (DecFacts.dec_numeral (n + N.of_nat k)) as (_ & D & d & l & E1 & _). rewrite E1 in E, D. injection E as -> _. cbn [forallb] in D. apply andb_prop in D as [D _]. cbn in Hd. intuition (subst; discriminate).
Qed.
Lemma steady_list : forall a n kind xs, 0 < n -> xs <> [] -> Forall (fun x => Forall steady (i_texts x)) xs -> steady (join [c_nl] (map (src_text a n kind) xs)).
Proof.
  intros a n kind xs Hn N F. unfold steady. rewrite split_joined by (intro E; apply map_eq_nil in E; contradiction). rewrite flat_map_map. apply Forall_flat_map.
  eapply Forall_impl; [|exact F]. intros x Fx. cbv beta. rewrite item_parts, split_indented by (apply line_free, item_head_chars). constructor.
  - unfold item_head. rewrite <- !app_assoc. apply steady_first.
  - apply Forall_map. apply Forall_forall. intros l L.
    assert (I : In l (split_lines (join [c_nl; c_nl] (i_texts x)))) by (rewrite split_head; now right).
    apply split_blocks in I as [->|(o & O & I)]; [rewrite app_nil_r; now apply steady_none|]. apply steady_more. rewrite Forall_forall in Fx. specialize (Fx o O). unfold steady in Fx. rewrite Forall_forall in Fx. now apply Fx.
Qed.
Lemma marker_inky : forall kind k, inky (marker kind k).
Proof.
  intros kind k. destruct (marker_head kind k) as (c & t & -> & _ & Hd). constructor. destruct Hd as [Hd|Hd]; [|cbn in Hd; intuition (subst; reflexivity)].
  unfold is_digit in Hd. apply andb_prop in Hd as [D1 D2]. apply N.leb_le in D1, D2. change (ch "0") with 48%N in *. change (ch "9") with 57%N in *.
  assert (D : c = 48%N \/ c = 49%N \/ c = 50%N \/ c = 51%N \/ c = 52%N \/ c = 53%N \/ c = 54%N \/ c = 55%N \/ c = 56%N \/ c = 57%N) by (clear -D1 D2; unfold char in *; lia). repeat (destruct D as [->|D]; [reflexivity|]). now subst c.
Qed.
Lemma dense_list : forall a n kind xs, xs <> [] -> Forall (fun x => len (i_texts x) <= 1 /\ Forall dense (i_texts x)) xs -> dense (join [c_nl] (map (src_text a n kind) xs)).
Proof.
  intros a n kind xs N F. unfold dense. rewrite split_joined by (intro E; apply map_eq_nil in E; contradiction). rewrite flat_map_map. apply Forall_flat_map.
  eapply Forall_impl; [|exact F]. intros x (Lx & Fx). cbv beta. rewrite item_parts, split_indented by (apply line_free, item_head_chars). constructor.
  - unfold item_head. rewrite <- !app_assoc. apply inky_app, inky_front, marker_inky.
  - apply Forall_map. apply Forall_forall. intros l L. apply inky_app. destruct (i_texts x) as [|o [|o2 os]]; [contradiction| |cbn in Lx; lia].
    cbn [join] in L. inversion Fx as [|? ? F1 _]; subst. unfold dense in F1. rewrite split_head in F1. inversion F1 as [|? ? _ F2]; subst. rewrite Forall_forall in F2. now apply F2.
Qed.
(** ... and it is solid *)
Lemma solid_app : forall p o, ~ In c_cr p -> solid o -> solid (p ++ o).
Proof.
  intros p o Hp [H1 (a & c & -> & H2)]. split; [intro I; apply in_app_or in I as [I|I]; contradiction|]. exists (p ++ a), c. split; [now rewrite app_assoc|exact H2].
Qed.
Lemma solid_ind : forall n o, solid o -> solid (ind n o).
Proof.
  intros n o [H1 (a & c & -> & H2)]. split.
  - intro I. unfold ind in I. apply in_flat_map in I as (x & X & I). destruct (N.eqb_spec x c_nl) as [->|].
    + destruct I as [I|I]; [discriminate|]. apply repeat_spec in I. discriminate.
    + destruct I as [E|[]]. subst x. contradiction.
  - rewrite ind_app. exists (ind n a), c. split; [|exact H2]. f_equal. rewrite ind_cons by exact H2. reflexivity.
Qed.
Lemma solid_joined : forall os, os <> [] -> Forall solid os -> solid (join [c_nl] os).
Proof.
  intros os Hne F. induction F as [|o os Ho Hos IH]; [congruence|]. destruct os as [|o2 os]; [exact Ho|].
  rewrite join_cons by discriminate. rewrite app_assoc. apply solid_app; [|now apply IH]. intro I. apply in_app_or in I as [I|[I|[]]]; [|discriminate]. now destruct Ho.
Qed.
Lemma line_no_cr : forall l, Forall line_char l -> ~ In c_cr l.
Proof. intros l H I. rewrite Forall_forall in H. apply H in I as [_ I]. now apply I. Qed.
Lemma solid_item : forall a n kind x, Forall solid (i_texts x) -> solid (src_text a n kind x).
Proof.
  intros a n kind x F. rewrite item_parts. destruct (i_texts x) as [|o os] eqn:E.
  - cbn [join]. change (ind n []) with (@nil char). rewrite app_nil_r. split; [apply line_no_cr, item_head_chars|]. unfold item_head. destruct (i_task x) as [[]|].
    + exists (rep a c_sp ++ marker kind (i_num x) ++ c_sp :: lit "[ ]"), c_sp. split; [|discriminate]. rewrite <- !app_assoc. reflexivity.
    + exists (rep a c_sp ++ marker kind (i_num x) ++ c_sp :: lit "[X]"), c_sp. split; [|discriminate]. rewrite <- !app_assoc. reflexivity.
    + exists (rep a c_sp ++ marker kind (i_num x)), c_sp. split; [|discriminate]. rewrite <- !app_assoc. reflexivity.
  - apply solid_app; [apply line_no_cr, item_head_chars|]. apply solid_ind. apply solid_join; [discriminate|exact F].
Qed.
Lemma solid_list : forall a n kind xs, xs <> [] -> Forall (fun x => Forall solid (i_texts x)) xs -> solid (join [c_nl] (map (src_text a n kind) xs)).
Proof.
  intros a n kind xs N F. apply solid_joined; [intro E; apply map_eq_nil in E; contradiction|]. apply Forall_map. eapply Forall_impl; [|exact F]. intros x. apply solid_item.
Qed.
