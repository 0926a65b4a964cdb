(** Inline elements at the beginning of a line begin no block. *)
From Coq Require Import String Lia.
From Verif Require Import SpecInline SyntaxFacts SyntaxInline SyntaxInline2 SpecBlock SyntaxLines SyntaxBlock SyntaxBlock2 SyntaxHtml SyntaxDef.
From Verif Require Export RoundWords.
Import ListNotations.
Open Scope list_scope.
Local Notation len := (@List.length _).

Lemma exact_no : forall A (p : parser A) R s, exact p R -> (forall a r, ~ R s a r) -> p s = Err.
Proof.
  intros A p R s [Hs H] N. destruct (p s) as [r a| |] eqn:E; [|reflexivity|].
  - apply H in E. now apply N in E.
  - now apply Hs in E.
Qed.
(** a checked task box, directly behind a list marker *)

(** ** Strings *)
Lemma ind_in : forall k s c, In c (ind k s) -> In c s \/ c = c_sp \/ c = c_nl.
Proof.
  intros k s c H. induction s as [|x s IH]; [contradiction|]. cbn [ind flat_map] in H. fold (ind k s) in H. apply in_app_or in H as [H|H].
  - destruct (N.eqb_spec x c_nl) as [->|N].
    + destruct H as [<-|H]; [auto|]. apply repeat_spec in H. auto.
    + destruct H as [<-|[]]. left. now left.
  - destruct (IH H) as [J|J]; [left; now right|auto].
Qed.
Lemma rep_cons_inj : forall j k c d s t, c <> c_sp -> d <> c_sp -> rep j c_sp ++ c :: s = rep k c_sp ++ d :: t -> j = k /\ c :: s = d :: t.
Proof.
  unfold rep. induction j as [|j IH]; intros [|k] c d s t Hc Hd E; cbn [repeat app] in E.
  - auto.
  - injection E as -> _. contradiction.
  - injection E as <- _. contradiction.
  - injection E as E. apply IH in E as [-> E]; auto.
Qed.
Lemma split_at_char : forall (x : char) a b s t, ~ In x a -> ~ In x b -> a ++ x :: s = b ++ x :: t -> a = b /\ s = t.
Proof.
  intros x. induction a as [|c a IH]; intros [|d b] s t Ha Hb E; cbn [app] in E.
  - injection E as ->. auto.
  - injection E as -> _. elim Hb. now left.
  - injection E as -> _. elim Ha. now left.
  - injection E as -> E. apply IH in E as [-> ->]; [auto|intro; apply Ha; now right|intro; apply Hb; now right].
Qed.
Lemma label_plain : forall raw text, label_text raw text -> forall a s t, ~ In (ch "]") a -> ~ In (ch "\") a ->
  raw ++ ch "]" :: s = a ++ ch "]" :: t -> raw = a /\ s = t /\ text = a.
Proof.
  induction 1 as [|raw text H IH|c raw text H1 H2 H IH]; intros [|d a] s t Ha Hb E; cbn [app] in E; try discriminate.
  - injection E as ->. auto.
  - injection E as <- _. elim Ha. now left.
  - injection E as <- _. elim Hb. now left.
  - injection E as -> _. now elim H1.
  - injection E as -> E. apply IH in E as (-> & -> & ->); [auto|intro; apply Ha; now right|intro; apply Hb; now right].
Qed.
Lemma class_split : forall (f : char -> bool) (s : str), exists p q, s = p ++ q /\ all f p /\ (forall c t, q = c :: t -> f c = false).
Proof.
  intros f. induction s as [|c s (p & q & -> & Hp & Hq)]; [exists [], []; repeat split; [constructor|discriminate]|].
  destruct (f c) eqn:E; [exists (c :: p), q; repeat split; [now constructor|exact Hq]|exists [], (c :: p ++ q)]. repeat split; [constructor|].
  intros d t X. injection X as -> _. exact E.
Qed.
Lemma class_then : forall (f : char -> bool) p t c y q z, all f p -> all f t -> f c = false -> f y = false -> p ++ c :: q = t ++ y :: z -> p = t /\ c = y /\ q = z.
Proof.
  intros f. induction p as [|x p IH]; intros [|x' t] c y q z Hp Ht Hc Hy E; cbn [app] in E.
  - injection E as -> ->. auto.
  - injection E as -> _. inversion Ht. congruence.
  - injection E as -> _. inversion Hp. congruence.
  - injection E as -> E. inversion Hp; inversion Ht; subst. destruct (IH t c y q z) as (-> & -> & ->); auto.
Qed.
(** a tag name and then something that cannot follow one *)
Lemma autolink_shape : forall u, uri u \/ email u -> exists p c q, u = p ++ c :: q /\ all tag_char p /\ tag_char c = false /\
  ~ In c [c_sp; ch "/"; ch ">"; c_nl; c_cr; 9%N] /\ (forall d v, u = d :: v -> ~ In d (lit "!?/")) /\ nl_free u.
Proof.
  intros u Hu.
  assert (G : exists p c q, u = p ++ c :: q /\ all tag_char p /\ tag_char c = false /\ In c (lit "+.:_@")).
  { destruct Hu as [(x & a & b & -> & Hx & _ & Ha & _)|(a & b & -> & _ & _ & Ha & _)].
    - destruct (class_split tag_char (x :: a)) as (p & q & E & Hp & Hq). change (x :: a ++ lit ":" ++ b) with ((x :: a) ++ ch ":" :: b). rewrite E.
      destruct q as [|c q]; [exists p, (ch ":"), b; rewrite app_nil_r; repeat split; [assumption|cbn; tauto]|].
      exists p, c, (q ++ ch ":" :: b). rewrite <- app_assoc. repeat split; [assumption|now apply (Hq c q)|].
      assert (S : all scheme_char (p ++ c :: q)). { rewrite <- E. constructor; [|exact Ha]. unfold scheme_char, is_alnum. now rewrite Hx. }
      apply Forall_app in S as [_ S]. inversion S as [|? ? S1 _]; subst. specialize (Hq c q eq_refl). unfold scheme_char in S1. unfold tag_char in Hq.
      apply orb_false_iff in Hq as [Q1 Q2]. rewrite Q1 in S1. cbn [orb] in S1. apply existsb_exists in S1 as (y & I & ->%N.eqb_eq).
      cbn in I. destruct I as [<-|[<-|[<-|[]]]]; [cbn; tauto|cbn; tauto|discriminate].
    - destruct (class_split tag_char a) as (p & q & E & Hp & Hq). rewrite E.
      destruct q as [|c q]; [exists p, (ch "@"), b; rewrite app_nil_r; repeat split; [assumption|cbn; tauto]|].
      exists p, c, (q ++ ch "@" :: b). rewrite <- app_assoc. repeat split; [assumption|now apply (Hq c q)|].
      rewrite E in Ha. apply Forall_app in Ha as [_ S]. inversion S as [|? ? S1 _]; subst. specialize (Hq c q eq_refl). unfold user_char in S1. unfold tag_char in Hq.
      apply orb_false_iff in Hq as [Q1 Q2]. rewrite Q1 in S1. cbn [orb] in S1. apply existsb_exists in S1 as (y & I & ->%N.eqb_eq).
      cbn in I. destruct I as [<-|[<-|[<-|[]]]]; [cbn; tauto|discriminate|cbn; tauto]. }
  destruct G as (p & c & q & -> & Hp & Hc & Ic). exists p, c, q. split; [reflexivity|]. split; [exact Hp|]. split; [exact Hc|]. split; [|split].
  - cbn in Ic |- *. intuition (subst; discriminate).
  - intros d v E J. destruct p as [|x p]; cbn [app] in E; injection E as -> _.
    + cbn in Ic, J. intuition (subst; discriminate).
    + inversion Hp as [|? ? X _]; subst. cbn in J. destruct J as [<-|[<-|[<-|[]]]]; discriminate.
  - intro J. destruct Hu as [(x & a & b & E & Hx & _ & Ha & Hb)|(a & b & E & _ & _ & Ha & Hb)]; rewrite E in J.
    + change (x :: a ++ lit ":" ++ b) with ((x :: a) ++ ch ":" :: b) in J. apply in_app_or in J as [[->|J]|[J|J]]; [discriminate| |discriminate|].
      * unfold all in Ha. rewrite Forall_forall in Ha. apply Ha in J. discriminate.
      * unfold all in Hb. rewrite Forall_forall in Hb. apply Hb in J. discriminate.
    + apply in_app_or in J as [J|[J|J]]; [|discriminate|].
      * unfold all in Ha. rewrite Forall_forall in Ha. apply Ha in J. discriminate.
      * unfold all in Hb. rewrite Forall_forall in Hb. apply Hb in J. discriminate.
Qed.

Lemma lower_tag : forall c, tag_char (to_lower c) = true -> tag_char c = true.
Proof.
  intros c H. unfold to_lower in H. destruct (is_upper c) eqn:U; [|exact H]. unfold tag_char, is_alnum, is_alpha. rewrite U. now rewrite ?orb_true_r.
Qed.
Lemma lower_tags : forall t, all tag_char (map to_lower t) -> all tag_char t.
Proof. intros t H. apply Forall_map in H. eapply Forall_impl; [|exact H]. intros c. apply lower_tag. Qed.
Lemma raw_name_tag : forall t, In (map to_lower t) raw_names -> all tag_char t.
Proof. intros t H. apply lower_tags. revert H. generalize (map to_lower t). intros n H. cbn in H. repeat destruct H as [<-|H]; try contradiction; repeat constructor. Qed.
Lemma block_name_tag : forall s t r, first_of (map any_case block_names) s t r -> all tag_char t.
Proof.
  intros s t r. assert (F : Forall (all tag_char) block_names) by (cbn; repeat constructor). revert F. generalize block_names. induction l as [|n l IH]; intros F H; [contradiction|].
  inversion F as [|? ? F1 F2]; subst. cbn [map first_of] in H. destruct H as [[_ E]|[_ H]]; [|now apply IH]. apply lower_tags. now rewrite E.
Qed.
Section Start.
Variables (entities : str -> option str) (punct : char -> bool) (upper : char -> str).
Let cfg := default_config entities punct upper.
Local Notation rec := (block_ cfg).
Local Notation quiet := (quiet entities punct upper).
Local Notation starters := (starters entities punct upper).

(** the starters, one by one *)
Lemma starters_e : forall s,
  p_heading_v1 cfg s = Err -> p_heading_v2_level s = Err -> p_thematic_break s = Err -> p_blockquote rec s = Err -> p_list_item_lines s = Err ->
  p_code_block_fenced s = Err -> p_html_block s = Err -> p_link_definition cfg s = Err -> p_footnote_definition rec s = Err -> p_table cfg s = Err ->
  line_terminated space0 s = Err -> alt starters s = Err.
Proof.
  intros s H1 H2 H3 H4 H5 H6 H7 H8 H9 H10 H11. unfold RoundBlocks.starters. apply alt_err.
  repeat apply Forall_cons1; try constructor; try (apply unit_e; assumption); try assumption.
  apply unit_e. unfold p_list_item. now apply bind_e.
Qed.
Ltac easy_side := first [assumption | discriminate | left; discriminate | left; apply marker_e; [reflexivity|discriminate|discriminate|discriminate]].
Ltac usual :=
  first [ solve [apply heading_e; easy_side] | solve [apply level_e; easy_side] | solve [apply thematic_e; easy_side]
        | solve [apply blockquote_e; easy_side] | solve [apply fenced_e; easy_side] | solve [apply html_e; easy_side]
        | solve [apply linkdef_e; easy_side] | solve [apply footnote_e; easy_side] | solve [apply table_e; easy_side] | solve [apply blank_e; easy_side]
        | solve [apply item_lines_e; easy_side] ].
Lemma q_bang : forall t, quiet (ch "!" :: t).
Proof.
  intros t. assert (Hi : inked (ch "!")) by (repeat split; discriminate). split; [now exists (ch "!"), t|].
  intros k r Hk Hr. rewrite ind_cons by discriminate. cbn [app]. apply starters_e; usual.
Qed.
(** less than three fence characters *)
Lemma fence_short : forall k f n c s, k <= 3 -> (f = ch "`" \/ f = ch "~") -> 1 <= n <= 2 -> c <> f -> p_code_block_fenced (rep k c_sp ++ rep n f ++ c :: s) = Err.
Proof.
  intros k f n c s Hk Hf Hn Hc. unfold p_code_block_fenced.
  assert (U : up_to_3_spaces (rep k c_sp ++ rep n f ++ c :: s) = Ok (rep n f ++ c :: s) (rep k c_sp)).
  { apply up3; [exact Hk|]. destruct n as [|n]; [lia|]. apply no_space_cons. destruct Hf as [->| ->]; discriminate. }
  unfold bind at 1. rewrite U. apply bind_e. apply lt_err. unfold pair_. apply bind_e. unfold recognize.
  assert (M : forall g, (g = ch "`" \/ g = ch "~") -> many_ge 3 (char_ g) (rep n f ++ c :: s) = Err).
  { intros g Hg. destruct (N.eq_dec g f) as [->|Ng].
    - unfold many_ge, rep. rewrite RoundWords.many_run; [|exact Hc|rewrite app_length, repeat_length; lia]. destruct (Nat.leb_spec 3 n); [lia|reflexivity].
    - unfold many_ge. rewrite Nat.add_comm. cbn [plus many_m_n]. destruct n as [|n]; [lia|]. cbn [rep repeat app]. rewrite char_ne by congruence. reflexivity. }
  rewrite alt_err; [reflexivity|]. apply Forall_cons1; [apply M; now left|]. apply Forall_cons1; [apply M; now right|constructor].
Qed.
Lemma q_tick : forall c t, c <> ch "`" -> quiet (ch "`" :: c :: t).
Proof.
  intros c t Hc. assert (Hi : inked (ch "`")) by (repeat split; discriminate). split; [now exists (ch "`"), (c :: t)|].
  intros k r Hk Hr. rewrite ind_cons by discriminate. cbn [app]. apply starters_e; try usual.
  assert (X : exists d u, ind k (c :: t) ++ r = d :: u /\ d <> ch "`").
  { cbn [ind flat_map]. destruct (N.eqb_spec c c_nl) as [->|]; cbn [app]; eexists _, _; (split; [reflexivity|]); [discriminate|exact Hc]. }
  destruct X as (d & u & -> & Hd). apply (fence_short k (ch "`") 1); auto.
Qed.
Lemma q_tilde : forall c t, c <> ch "~" -> quiet (lit "~~" ++ c :: t).
Proof.
  intros c t Hc. assert (Hi : inked (ch "~")) by (repeat split; discriminate). split; [now exists (ch "~"), (ch "~" :: c :: t)|].
  intros k r Hk Hr. change (lit "~~" ++ c :: t) with (ch "~" :: ch "~" :: c :: t). rewrite !(ind_cons k (ch "~")) by discriminate. cbn [app]. apply starters_e; try usual.
  assert (X : exists d u, ind k (c :: t) ++ r = d :: u /\ d <> ch "~").
  { cbn [ind flat_map]. destruct (N.eqb_spec c c_nl) as [->|]; cbn [app]; eexists _, _; (split; [reflexivity|]); [discriminate|exact Hc]. }
  destruct X as (d & u & -> & Hd). apply (fence_short k (ch "~") 2); auto.
Qed.
(** stars: no list marker, no rule *)
Lemma stars_item : forall k c s, k <= 3 -> inked c -> line_terminated p_task_state (c :: s) = Err -> p_list_item_lines (rep k c_sp ++ ch "*" :: c :: s) = Err.
Proof.
  intros k c s Hk Hc Ht. assert (Hi : inked (ch "*")) by (repeat split; discriminate).
  assert (PM : p_list_marker (ch "*" :: c :: s) = Ok (c :: s) (Bullet Star)) by reflexivity.
  assert (M : preceded up_to_3_spaces p_list_marker (rep k c_sp ++ ch "*" :: c :: s) = Ok (c :: s) (Bullet Star)) by (unfold preceded, bind; now rewrite up3_here).
  assert (D : c <> c_sp) by (intros ->; destruct Hc as [_ X]; discriminate X).
  assert (U : up_to_3_spaces (c :: s) = Ok (c :: s) []) by (apply (up3 0); [lia|now apply no_space_cons]).
  unfold p_list_item_lines. apply bind_e. unfold p_marker_with_span. apply alt_err.
  apply Forall_cons1; [|apply Forall_cons1; [|constructor]].
  - apply pmap_e. unfold p_marker_newline. unfold consumed at 1, bind at 1. rewrite M.
    unfold or_else. rewrite pmap_e by (apply (lt_char _ _ _ c s []); [apply (space0_line 0); apply Hc|apply Hc]).
    unfold bind at 1. unfold consumed. rewrite U. apply bind_e. exact Ht.
  - unfold pair_. apply bind_e. unfold p_marker_spaces. apply bind_e. unfold consumed, delimited, preceded, bind. rewrite up3_here by assumption.
    unfold terminated, bind. rewrite PM. unfold value, pmap, bind. cbn [many_m_n].
    rewrite sp_none; [reflexivity|now apply no_space_cons].
Qed.
Lemma no_task : forall s, (forall x u, In x (lit "xX ") -> s = ch "[" :: x :: ch "]" :: u -> (exists c v, u = c :: v /\ line_char c)) -> line_terminated p_task_state s = Err.
Proof.
  intros s H. destruct (p_task_state s) as [r a| |] eqn:E.
  - assert (X : exists x, In x (lit "xX ") /\ s = ch "[" :: x :: ch "]" :: r).
    { unfold p_task_state, delimited, preceded, terminated, bind, chr, char_, satisfy in E. destruct s as [|c s]; [discriminate|].
      destruct (N.eqb_spec (ch "[") c) as [<-|]; [|discriminate]. destruct s as [|x s]; [discriminate|]. exists x.
      unfold alt, or_else, value, pmap, bind, one_of, satisfy, ret in E. destruct (existsb _ _) eqn:B in E.
      - apply existsb_exists in B as (y & I & ->%N.eqb_eq). split; [cbn in I |- *; tauto|].
        destruct s as [|z s]; [discriminate|]. destruct (N.eqb_spec (ch "]") z) as [<-|]; [|discriminate]. now injection E as -> _.
      - destruct (N.eqb_spec (ch " ") x) as [<-|]; [|discriminate]. split; [cbn; tauto|].
        destruct s as [|y s]; [discriminate|]. destruct (N.eqb_spec (ch "]") y) as [<-|]; [|discriminate]. now injection E as -> _. }
    destruct X as (x & Hx & ->). destruct (H x r Hx eq_refl) as (c & v & -> & Hc). eapply lt_char; [exact E|exact Hc].
  - now apply lt_err.
  - exfalso. unfold p_task_state, delimited, preceded, terminated, bind, chr, char_, satisfy in E. destruct s as [|c s]; [discriminate|].
    destruct (N.eqb_spec (ch "[") c) as [<-|]; [|discriminate]. destruct s as [|x s]; [discriminate|].
    unfold alt, or_else, value, pmap, bind, one_of, satisfy, ret in E. destruct (existsb _ _) in E.
    + destruct s as [|y s]; [discriminate|]. destruct (N.eqb (ch "]") y); discriminate.
    + destruct (N.eqb (ch " ") x); [|discriminate]. destruct s as [|y s]; [discriminate|]. destruct (N.eqb (ch "]") y); discriminate.
Qed.
Lemma q_stars : forall n c t, 1 <= n <= 3 -> inked c -> c <> ch "*" -> 
  (n = 1 -> forall x u, c :: t = ch "[" :: x :: ch "]" :: u -> exists d v, u = d :: v /\ line_char d) -> quiet (rep n (ch "*") ++ c :: t).
Proof.
  intros n c t Hn Hc Ns Ht. assert (Hi : inked (ch "*")) by (repeat split; discriminate).
  assert (Hl : c <> c_nl) by (destruct Hc as [[X _] _]; exact X).
  destruct n as [|n]; [lia|]. split; [eexists _, _; split; reflexivity|].
  intros k r Hk Hr. rewrite ind_app, ind_free by (intro J; apply repeat_spec in J; discriminate).
  rewrite ind_cons by exact Hl. rewrite <- app_assoc. cbn [app].
  assert (T : p_thematic_break (rep k c_sp ++ rep (S n) (ch "*") ++ c :: ind k t ++ r) = Err).
  { unfold p_thematic_break. apply unit_e. unfold line_terminated, terminated at 1, preceded, bind.
    change (rep (S n) (ch "*") ++ ?x) with (ch "*" :: (rep n (ch "*") ++ x)). rewrite up3_here by assumption.
    change (ch "*" :: (rep n (ch "*") ++ ?x)) with (rep (S n) (ch "*") ++ x).
    assert (M : forall g, g <> ch "*" -> forall s, many_ge 3 (char_ g) (rep (S n) (ch "*") ++ s) = Err).
    { intros g Hg s. unfold many_ge. rewrite Nat.add_comm. cbn [plus many_m_n rep repeat app]. rewrite char_ne by congruence. reflexivity. }
    assert (M2 : many_ge 3 (chr "*") (rep (S n) (ch "*") ++ c :: ind k t ++ r) = if 3 <=? S n then Ok (c :: ind k t ++ r) (rep (S n) (ch "*")) else Err).
    { unfold many_ge, rep, chr. apply RoundWords.many_run; [exact Ns|rewrite app_length, repeat_length; lia]. }
    unfold terminated, bind. destruct (alt _ _) as [r1 a| |] eqn:E; [|reflexivity|].
    - unfold alt, or_else in E. unfold chr in E. rewrite !M in E by discriminate. unfold chr in M2. rewrite M2 in E. destruct (3 <=? S n); [|discriminate].
      injection E as <- _. unfold value, pmap, bind. rewrite space0_inked by exact Hc. unfold ret. now rewrite eol_char by apply Hc.
    - unfold alt, or_else in E. unfold chr in E. rewrite !M in E by discriminate. unfold chr in M2. rewrite M2 in E. destruct (3 <=? S n); discriminate. }
  assert (L : p_list_item_lines (rep k c_sp ++ rep (S n) (ch "*") ++ c :: ind k t ++ r) = Err).
  { destruct n as [|n].
    - apply stars_item; [exact Hk|exact Hc|]. apply no_task. intros x u Ix E. injection E as -> E.
      assert (Nx : x <> c_nl) by (cbn in Ix; intros ->; intuition discriminate).
      destruct t as [|y t]; [cbn in E; subst r; cbn in Hr; congruence|].
      destruct (N.eq_dec y c_nl) as [->|Ny]; [rewrite ind_nl in E; cbn in E; congruence|].
      rewrite ind_cons in E by exact Ny. cbn in E. injection E as -> E.
      destruct t as [|y t]; [cbn in E; subst r; discriminate Hr|].
      destruct (N.eq_dec y c_nl) as [->|Nz]; [rewrite ind_nl in E; discriminate|].
      rewrite ind_cons in E by exact Nz. cbn in E. injection E as -> E.
      destruct (Ht eq_refl x t eq_refl) as (d & v & -> & Hd). subst u. rewrite ind_cons by apply Hd. eexists _, _. split; [reflexivity|exact Hd].
    - apply stars_item; [exact Hk|exact Hi|]. apply no_task. intros x u _ E. discriminate. }
  cbn [rep repeat app] in *. apply starters_e; try usual; assumption.
Qed.
(** brackets: no definition *)
Lemma q_bracket : forall a t, ~ In (ch "]") a -> ~ In (ch "\") a -> ~ begins_with (ch ":") t -> quiet (lit "[" ++ a ++ lit "]" ++ t).
Proof.
  intros a t H1 H2 Ht. assert (Hi : inked (ch "[")) by (repeat split; discriminate).
  split; [eexists _, _; split; reflexivity|]. intros k r Hk Hr.
  change (lit "[" ++ a ++ lit "]" ++ t) with (ch "[" :: a ++ ch "]" :: t). rewrite ind_cons by discriminate. rewrite ind_app, ind_cons by discriminate.
  cbn [app]. rewrite <- app_assoc. cbn [app].
  assert (H1' : ~ In (ch "]") (ind k a)) by (intro J; apply ind_in in J as [J|[J|J]]; [contradiction|discriminate|discriminate]).
  assert (H2' : ~ In (ch "\") (ind k a)) by (intro J; apply ind_in in J as [J|[J|J]]; [contradiction|discriminate|discriminate]).
  assert (Ht' : ~ begins_with (ch ":") (ind k t ++ r)).
  { intros (u & E). destruct t as [|c t]; [cbn in E; subst r; discriminate Hr|]. destruct (N.eq_dec c c_nl) as [->|N]; [discriminate|].
    rewrite ind_cons in E by exact N. injection E as -> _. apply Ht. now exists t. }
  set (a' := ind k a) in *. set (t' := ind k t ++ r) in *. clearbody a' t'.
  apply starters_e; try usual.
  - apply (proj2 (exact_err _ _ (exact_definition cfg (cfg_ok _ _ _) ltac:(discriminate)) _)). intros (x & r1 & label & d & ti & l & H & _).
    inversion H as [k' s' label' w m d' m1 ti' m2 r' Lk Hb Hw Hd Hti Hl E]; subst. destruct Hb as (raw & -> & Hraw & _).
    apply rep_cons_inj in E as [_ E]; [|discriminate|discriminate]. injection E as E. apply (label_plain _ _ Hraw) in E as (_ & E & _); [|assumption|assumption]. apply Ht'. eexists. symmetry; exact E.
  - unfold p_footnote_definition. apply bind_e. apply (proj2 (exact_err _ _ exact_footnote_lines _)). intros ([label v] & r1 & H). cbn [fst snd] in H.
    inversion H as [k' label' m m1 v' m2 ls r' Lk Hne Hb H3 H4 H5 E]; subst.
    apply rep_cons_inj in E as [_ E]; [|discriminate|discriminate]. cbn [app] in E. injection E as E.
    assert (X : ~ In (ch "]") (ch "^" :: label)) by (intros [J|J]; [discriminate|contradiction]).
    pose proof (split_at_char (ch "]") (ch "^" :: label) a' (ch ":" :: m) t' X H1') as Y. destruct Y as [_ Y]; [exact E|]. apply Ht'. now exists m.
Qed.
(** autolinks: no HTML *)
Lemma q_angle : forall u t, uri u \/ email u -> quiet (lit "<" ++ u ++ lit ">" ++ t).
Proof.
  intros u t Hu. assert (Hi : inked (ch "<")) by (repeat split; discriminate).
  split; [eexists _, _; split; reflexivity|]. intros k r Hk Hr.
  destruct (autolink_shape u Hu) as (p & c & q & -> & Hp & Hc & Hcs & Hh & Hl).
  change (lit "<" ++ ?x) with (ch "<" :: x). rewrite ind_cons by discriminate. rewrite ind_app, (ind_free k (p ++ c :: q)) by exact Hl. rewrite ind_app, (ind_free k (lit ">")) by (intro J; cbn in J; intuition discriminate).
  cbn [app]. rewrite <- !app_assoc. cbn [app]. set (z := q ++ lit ">" ++ ind k t ++ r).
  assert (Hd : forall d rest, p ++ c :: z = d :: rest -> ~ In d (lit "!?/")).
  { intros d rest E. destruct p as [|x p]; cbn [app] in E; injection E as -> _; eapply Hh; reflexivity. }
  apply starters_e; try usual.
  apply (proj2 (exact_err _ _ exact_html_block _)). intros (v & r1 & H). inversion H as [k' m v' r' Lk Ha E]; subst.
  assert (Hm : exists m', m = ch "<" :: m').
  { unfold html_at in Ha. cbn [first_of] in Ha.
    repeat match type of Ha with _ \/ _ => destruct Ha as [Ha|[_ Ha]] | False => contradiction end.
    - destruct Ha as (? & ? & ? & ? & -> & -> & _). eexists. reflexivity.
    - destruct Ha as (? & -> & -> & _). eexists. reflexivity.
    - destruct Ha as (? & -> & -> & _). eexists. reflexivity.
    - destruct Ha as (? & _ & ? & -> & -> & _). eexists. reflexivity.
    - destruct Ha as (? & -> & -> & _). eexists. reflexivity.
    - destruct Ha as (o & ? & ? & ? & ? & ? & -> & -> & I & _). destruct I as [<-|[<-|[]]]; eexists; reflexivity.
    - destruct Ha as (? & ? & ? & ? & _ & _ & [(? & ? & ? & ? & ? & ? & ? & -> & _)|(? & ? & ? & -> & _)] & _); eexists; reflexivity. }
  destruct Hm as (m' & ->). apply rep_cons_inj in E as [_ E]; [|discriminate|discriminate]. injection E as ->.
  unfold html_at in Ha. cbn [first_of] in Ha.
  repeat match type of Ha with _ \/ _ => destruct Ha as [Ha|[_ Ha]] | False => contradiction end.
  - destruct Ha as (n & x & body & e & -> & E & I & Hx & _). cbn [app] in E. injection E as E. rewrite <- !app_assoc in E.
    assert (Y : exists y x', x = y :: x' /\ tag_char y = false /\ In y [c_sp; ch ">"; c_nl; c_cr]).
    { destruct Hx as [->|[->|[->| ->]]]; eexists _, _; (split; [reflexivity|]); (split; [reflexivity|]); cbn; tauto. }
    destruct Y as (y & x' & -> & Hy & Iy). cbn [app] in E. apply (class_then tag_char) in E as (_ & -> & _); [|exact Hp|now apply raw_name_tag|exact Hc|exact Hy].
    apply Hcs. cbn in Iy |- *. intuition.
  - destruct Ha as (body & -> & E & _). cbn [app] in E. injection E as E. apply (Hd _ _ E). cbn; tauto.
  - destruct Ha as (body & -> & E & _). cbn [app] in E. injection E as E. apply (Hd _ _ E). cbn; tauto.
  - destruct Ha as (x & _ & body & -> & E & _). cbn [app] in E. injection E as E. apply (Hd _ _ E). cbn; tauto.
  - destruct Ha as (body & -> & E & _). cbn [app] in E. injection E as E. apply (Hd _ _ E). cbn; tauto.
  - destruct Ha as (o & n & x & body & e & m & -> & E & I & Em & Hn & Hx & _). destruct I as [<-|[<-|[]]].
    + cbn [app] in E. injection E as E. rewrite <- !app_assoc in E.
      assert (Y : exists y x', x = y :: x' /\ tag_char y = false /\ In y [c_sp; ch ">"; ch "/"; c_nl; c_cr]).
      { destruct Hx as [->|[->|[->|[->| ->]]]]; eexists _, _; (split; [reflexivity|]); (split; [reflexivity|]); cbn; tauto. }
      destruct Y as (y & x' & -> & Hy & Iy). cbn [app] in E. apply (class_then tag_char) in E as (_ & -> & _); [|exact Hp|eapply block_name_tag; exact Hn|exact Hc|exact Hy].
      apply Hcs. cbn in Iy |- *. intuition.
    + cbn [app] in E. injection E as E. apply (Hd _ _ E). cbn; tauto.
  - destruct Ha as (n & x & body & e & _ & _ & [(m & nm & m1 & l & m2 & w & cc & E & (Hn & _) & _ & Hr1 & Em2 & Hw & Hcc)|(m & nm & w & E & _)] & _).
    + injection E as <-. destruct Hn as (E & Hn1 & Hn2).
      assert (M1 : m1 = c :: z).
      { destruct m1 as [|y m1].
        - exfalso. rewrite app_nil_r in E. subst nm. apply Forall_app in Hn1 as [_ Hn1]. inversion Hn1. congruence.
        - specialize (Hn2 y (ex_intro _ m1 eq_refl)). apply (class_then tag_char) in E as (_ & -> & ->); auto. }
      subst m1. assert (m2 = c :: z) as ->.
      { inversion Hr1 as [|s0 a0 m0 l0 r0 Ha Hb]; subst; [reflexivity|]. exfalso. destruct Ha as (_ & ws & m3 & m4 & E3 & Hws & Hsp & _).
        destruct ws as [|y ws]; [congruence|]. injection E3 as -> _. inversion Hsp as [|? ? X _]; subst. unfold is_space in X. apply orb_prop in X as [X|X]; apply N.eqb_eq in X; subst y; apply Hcs; cbn; tauto. }
      destruct w as [|y w]; cbn [app] in Em2.
      * destruct Hcc as [<-|[<-|[]]]; cbn [app] in Em2; injection Em2 as -> _; apply Hcs; cbn; tauto.
      * injection Em2 as -> _. inversion Hw as [|? ? X _]; subst. unfold is_space in X. apply orb_prop in X as [X|X]; apply N.eqb_eq in X; subst y; apply Hcs; cbn; tauto.
    + cbn [app] in E. injection E as E. apply (Hd _ _ E). cbn; tauto.
Qed.
End Start.
