(** Text behind a blank line: the rules of the block grammar (SpecBlock.v) read
    [u ++ [10; 10]] and [u ++ [10; 10] ++ b] alike. *)
From Coq Require Import String Lia List.
From Verif Require Import SpecParser SpecBlock SpecFinal SpecAppend HtmlStart FinalFacts.
Import ListNotations.
Open Scope list_scope.
Local Notation len := (@List.length _).

Section Append.
Variable b : str.
Definition ext (s s' : str) : Prop := exists u, s = u ++ [10%N; 10%N] /\ s' = u ++ 10%N :: 10%N :: b.
Definition ex (s s' : str) : Prop := ext s s' \/ (s = [10%N] /\ s' = 10%N :: b).
Definition fore {A} (Q : str -> str -> Prop) (R : rule A) : Prop := forall s s', ext s s' -> forall x r, R s x r -> exists r', R s' x r' /\ Q r r'.
Definition aft {A} (Q : str -> str -> Prop) (R : rule A) : Prop := forall s s', ext s s' -> forall x r', R s' x r' -> exists r, R s x r /\ Q r r'.
Definition ins {A} (Q : str -> str -> Prop) (R : rule A) : Prop := fore Q R /\ aft Q R.
Definition dead {A} (R : rule A) : Prop := ~ applies R [10%N] /\ ~ applies R (10%N :: b).

Lemma free_split : forall (t m u v : str), t ++ m = u ++ 10%N :: v -> ~ In 10%N t -> exists w, u = t ++ w /\ m = w ++ 10%N :: v.
Proof.
  induction t as [|c t IH]; intros m u v E N; [now exists u|]. destruct u as [|d u].
  - cbn [app] in E. injection E as -> _. elim N. now left.
  - cbn [app] in E. injection E as -> E. destruct (IH m u v E) as (w & -> & ->); [intro J; apply N; now right|]. now exists w.
Qed.
Lemma ext_off : forall t m s', ext (t ++ m) s' -> ~ In 10%N t -> exists m', s' = t ++ m' /\ ext m m'.
Proof.
  intros t m s' (u & E & ->) N. apply free_split in E; [|exact N]. destruct E as (w & -> & ->). exists (w ++ 10%N :: 10%N :: b). rewrite app_assoc. split; [reflexivity|]. now exists w.
Qed.
Lemma ext_back : forall t m' s, ext s (t ++ m') -> ~ In 10%N t -> exists m, s = t ++ m /\ ext m m'.
Proof.
  intros t m' s (u & -> & E) N. apply free_split in E; [|exact N]. destruct E as (w & -> & ->). exists (w ++ [10%N; 10%N]). rewrite app_assoc. split; [reflexivity|]. now exists w.
Qed.
Lemma ext_off1 : forall c m s', c <> 10%N -> ext (c :: m) s' -> exists m', s' = c :: m' /\ ext m m'.
Proof. intros c m s' N F. apply (ext_off [c] m s' F). intros [J|[]]. congruence. Qed.
Lemma ext_back1 : forall c m' s, c <> 10%N -> ext s (c :: m') -> exists m, s = c :: m /\ ext m m'.
Proof. intros c m' s N F. apply (ext_back [c] m' s F). intros [J|[]]. congruence. Qed.
Lemma begins_ext : forall c s s', ext s s' -> (begins_with c s <-> begins_with c s').
Proof.
  intros c s s' (u & -> & ->). destruct u as [|d u]; cbn [app]; split; intros (t & E); injection E as <- _; eexists; reflexivity.
Qed.
Lemma ext_ne : forall s s', ext s s' -> s <> [] /\ s' <> [].
Proof. intros s s' (u & -> & ->). split; intros E; apply app_eq_nil in E; destruct E; discriminate. Qed.

(** ** Lines *)
Lemma end_ext : forall s s', ext s s' -> (forall r, line_end s r -> exists r', line_end s' r' /\ ex r r') /\ (forall r', line_end s' r' -> exists r, line_end s r /\ ex r r').
Proof.
  assert (K : forall u v : str, u <> [] -> forall e m, is_eol e -> e ++ m = u ++ 10%N :: v -> (u = [13%N] /\ m = v /\ e = [13%N; 10%N]) \/ exists w, u = e ++ w /\ m = w ++ 10%N :: v).
  { intros u v N e m [-> | ->] E; destruct u as [|c u]; try congruence; cbn [app] in E.
    - injection E as <- ->. right. now exists u.
    - destruct u as [|d u]; cbn [app] in E; injection E as <-; [left; now subst|]. subst. right. now exists u. }
  intros s s' (u & -> & ->). split.
  - intros r H. inversion H as [e r0 E X|E]; subst; [|destruct u; discriminate].
    destruct u as [|c u]; [exists (10%N :: b); destruct E as [-> | ->]; cbn [app] in X; [injection X as ->|discriminate]; split; [apply (end_eol [10%N]); now left|right; split; reflexivity]|].
    destruct (K (c :: u) _ ltac:(discriminate) _ _ E X) as [(U & -> & ->)|(w & U & ->)]; rewrite U.
    + exists (10%N :: b). split; [apply (end_eol [13%N; 10%N]); now right|now right].
    + exists (w ++ 10%N :: 10%N :: b). rewrite <- app_assoc. split; [now constructor|]. left. now exists w.
  - intros r H. inversion H as [e r0 E X|E]; subst; [|destruct u; discriminate].
    destruct u as [|c u]; [exists [10%N]; destruct E as [-> | ->]; cbn [app] in X; [injection X as ->|discriminate]; split; [apply (end_eol [10%N]); now left|right; split; reflexivity]|].
    destruct (K (c :: u) _ ltac:(discriminate) _ _ E X) as [(U & -> & ->)|(w & U & ->)]; rewrite U.
    + exists [10%N]. split; [apply (end_eol [13%N; 10%N] [10%N]); now right|now right].
    + exists (w ++ [10%N; 10%N]). rewrite <- app_assoc. split; [now constructor|]. left. now exists w.
Qed.
Lemma line_end_ext : forall s s', ext s s' -> ((exists r, line_end s r) <-> exists r, line_end s' r).
Proof.
  intros s s' F. destruct (end_ext s s' F) as [X Y]. split; intros (r & H); [destruct (X r H) as (r' & ? & _)|destruct (Y r H) as (r' & ? & _)]; eauto.
Qed.
Ltac off F N m Fm := destruct (ext_off _ _ _ F N) as (m & -> & Fm).
Ltac back F N m Fm := destruct (ext_back _ _ _ F N) as (m & -> & Fm).
Ltac off1 F m Fm := match type of F with ext (?c :: _) _ => destruct (ext_off1 c _ _ ltac:(discriminate) F) as (m & -> & Fm) end.
Ltac back1 F m Fm := match type of F with ext _ (?c :: _) => destruct (ext_back1 c _ _ ltac:(discriminate) F) as (m & -> & Fm) end.
Ltac endf H F E r' E' Fr := destruct (proj1 (H _ _ F) _ E) as (r' & E' & Fr).
Ltac endb H F E r' E' Fr := destruct (proj2 (H _ _ F) _ E) as (r' & E' & Fr).
Ltac fwd H F E r' E' Fr := destruct (proj1 H _ _ F _ _ E) as (r' & E' & Fr).
Ltac bwd H F E r' E' Fr := destruct (proj2 H _ _ F _ _ E) as (r' & E' & Fr).
Ltac close r' Fr := exists r'; split; [|exact Fr].
Notation sp_free k := (rep_free k c_sp ltac:(discriminate)).

Lemma plain_ext : ins ex plain_line.
Proof.
  split; intros s s' F v r (m & -> & N1 & N2 & E).
  - off F N1 m' Fm. endf end_ext Fm E r' E' Fr. close r' Fr. exists m'. tauto.
  - back F N1 m' Fm. endb end_ext Fm E r' E' Fr. close r' Fr. exists m'. tauto.
Qed.
Lemma text_ext : ins ex text_line.
Proof.
  split; intros s s' F v r (m & -> & N0 & N1 & E & N2).
  - off F N1 m' Fm. endf end_ext Fm E r' E' Fr. close r' Fr. exists m'. rewrite <- (begins_ext _ _ _ Fm). tauto.
  - back F N1 m' Fm. endb end_ext Fm E r' E' Fr. close r' Fr. exists m'. rewrite (begins_ext _ _ _ Fm). tauto.
Qed.
Lemma strip_ext : forall k s s', ext s s' -> (forall m, strip k s m -> exists m', strip k s' m' /\ ext m m') /\ (forall m', strip k s' m' -> exists m, strip k s m /\ ext m m').
Proof.
  intros k s s' F. split; intros m (j & -> & L & B).
  - off F (sp_free j) m' Fm. close m' Fm. exists j. rewrite <- (begins_ext _ _ _ Fm). auto.
  - back F (sp_free j) m' Fm. close m' Fm. exists j. rewrite (begins_ext _ _ _ Fm). auto.
Qed.
Lemma applies_fore : forall A Q (R : rule A) s s', fore Q R -> ext s s' -> applies R s -> applies R s'.
Proof. intros A Q R s s' H F (x & r & E). destruct (H _ _ F _ _ E) as (r' & E' & _). now exists x, r'. Qed.
Lemma applies_aft : forall A Q (R : rule A) s s', aft Q R -> ext s s' -> applies R s' -> applies R s.
Proof. intros A Q R s s' H F (x & r & E). destruct (H _ _ F _ _ E) as (r' & E' & _). now exists x, r'. Qed.
Lemma applies_ext : forall A Q (R : rule A) s s', ins Q R -> ext s s' -> (applies R s <-> applies R s').
Proof. intros A Q R s s' [H1 H2] F. split; [now apply (applies_fore A Q)|now apply (applies_aft A Q)]. Qed.
Lemma repeated_fore : forall A (R : rule A), ins ex R -> dead R -> forall s s', ex s s' -> forall l r, repeated R s l r -> exists r', repeated R s' l r' /\ ex r r'.
Proof.
  intros A R H [D1 D2] s s' F l r E. revert s' F. induction E as [s N|s a m l r E _ IH]; intros s' F.
  - exists s'. split; [|exact F]. constructor. destruct F as [F|[-> ->]]; [now rewrite <- (applies_ext _ _ _ _ _ H F)|exact D2].
  - destruct F as [F|[-> ->]]; [|elim D1; now exists a, m]. fwd H F E m' E' Fm. destruct (IH _ Fm) as (r' & E2 & Fr). close r' Fr. now apply (rep_more R s' a m').
Qed.
Lemma repeated_aft : forall A (R : rule A), ins ex R -> dead R -> forall s s', ex s s' -> forall l r', repeated R s' l r' -> exists r, repeated R s l r /\ ex r r'.
Proof.
  intros A R H [D1 D2] s s' F l r E. revert s F. induction E as [s' N|s' a m l r E _ IH]; intros s F.
  - exists s. split; [|exact F]. constructor. destruct F as [F|[-> ->]]; [now rewrite (applies_ext _ _ _ _ _ H F)|exact D1].
  - destruct F as [F|[-> ->]]; [|elim D2; now exists a, m]. bwd H F E m' E' Fm. destruct (IH _ Fm) as (r' & E2 & Fr). close r' Fr. now apply (rep_more R s a m').
Qed.
Lemma repeated_ext : forall A (R : rule A), ins ex R -> dead R -> ins ex (repeated R).
Proof. intros A R H D. split; intros s s' F x r E; [apply (repeated_fore A R H D s)|apply (repeated_aft A R H D s s')]; auto; now left. Qed.
Lemma first_ext : forall A Q (l : list (rule A)), Forall (ins Q) l -> ins Q (first_of l).
Proof.
  intros A Q l H. induction H as [|R l H _ IH]; [split; intros s s' F x r []|]. split; intros s s' F x r; cbn [first_of]; intros [E|[N E]].
  - fwd H F E r' E' Fr. close r' Fr. now left.
  - fwd IH F E r' E' Fr. close r' Fr. right. split; [|exact E']. now rewrite <- (applies_ext _ _ _ _ _ H F).
  - bwd H F E r' E' Fr. close r' Fr. now left.
  - bwd IH F E r' E' Fr. close r' Fr. right. split; [|exact E']. now rewrite (applies_ext _ _ _ _ _ H F).
Qed.
(** a rule that cannot begin with a line end *)
Lemma dead_lf : forall A (R : rule A), (forall s, begins_with 10%N s -> ~ applies R s) -> dead R.
Proof. intros A R H. split; apply H; eexists; reflexivity. Qed.

(** ** Code *)
Lemma code_line_ext : ins ex code_line.
Proof.
  split; intros s s' F v r (m & [-> | ->] & E).
  - off F (sp_free 4) m' Fm. fwd plain_ext Fm E r' E' Fr. close r' Fr. exists m'. auto.
  - off1 F m' Fm. fwd plain_ext Fm E r' E' Fr. close r' Fr. exists m'. auto.
  - back F (sp_free 4) m' Fm. bwd plain_ext Fm E r' E' Fr. close r' Fr. exists m'. auto.
  - back1 F m' Fm. bwd plain_ext Fm E r' E' Fr. close r' Fr. exists m'. auto.
Qed.
Lemma code_line_dead : dead code_line.
Proof. apply dead_lf. intros s (t & ->) (v & r & m & [E|E] & _); discriminate. Qed.
Lemma fence_end_fore : forall f n s s', f <> 10%N -> ext s s' -> forall r, fence_end f n s r -> exists r', fence_end f n s' r' /\ ex r r'.
Proof.
  intros f n s s' Nf F r (k & j & m & -> & L1 & L2 & E). off F (sp_free k) m1 F1. off F1 (rep_free j f Nf) m' Fm. endf end_ext Fm E r' E' Fr. close r' Fr. exists k, j, m'. auto.
Qed.
Lemma fence_end_aft : forall f n s s', f <> 10%N -> ext s s' -> forall r', fence_end f n s' r' -> exists r, fence_end f n s r /\ ex r r'.
Proof.
  intros f n s s' Nf F r (k & j & m & -> & L1 & L2 & E). back F (sp_free k) m1 F1. back F1 (rep_free j f Nf) m' Fm. endb end_ext Fm E r' E' Fr. close r' Fr. exists k, j, m'. auto.
Qed.
Lemma fenced_line_ext : forall k f n, f <> 10%N -> ins ex (fenced_line k f n).
Proof.
  intros k f n Nf. split; intros s s' F v r (N & m & S & E).
  - endf (strip_ext k) F S m' S' Fm. fwd plain_ext Fm E r' E' Fr. close r' Fr. split; [|exists m'; auto]. intros y Y. destruct (fence_end_aft f n _ _ Nf F _ Y) as (z & Z & _). exact (N z Z).
  - endb (strip_ext k) F S m' S' Fm. bwd plain_ext Fm E r' E' Fr. close r' Fr. split; [|exists m'; auto]. intros y Y. destruct (fence_end_fore f n _ _ Nf F _ Y) as (z & Z & _). exact (N z Z).
Qed.
Lemma strip_nil : forall k, strip k [] [].
Proof. intros k. exists 0. split; [reflexivity|]. split; [lia|]. intros _ (t & E). discriminate. Qed.
Lemma no_fence_nil : forall f n r, 3 <= n -> ~ fence_end f n [] r.
Proof. intros f n r L (k & j & m & E & _ & L2 & _). destruct k; [|discriminate]. destruct j; [lia|discriminate]. Qed.
Lemma fenced_lines_nil : forall k f n l r, 3 <= n -> ~ repeated (fenced_line k f n) [] l r.
Proof.
  intros k f n l r L H. remember [] as s. induction H as [s N|s a m l r E _ IH]; subst.
  - apply N. exists [], []. split; [intros r; now apply no_fence_nil|]. exists []. split; [apply strip_nil|]. exists []. repeat split; auto. apply end_eof.
  - apply IH. destruct E as (_ & m' & (j & E1 & _) & y & E2 & _ & _ & E). symmetry in E1. apply app_eq_nil in E1. destruct E1 as [_ ->]. symmetry in E2. apply app_eq_nil in E2. destruct E2 as [_ ->].
    inversion E as [e r0 Ee X|]; [destruct Ee; subst e; discriminate|reflexivity].
Qed.
Lemma fenced_body : forall k f n, f <> 10%N -> 3 <= n -> forall s s' ls m r, ex s s' -> repeated (fenced_line k f n) s ls m -> fence_end f n m r ->
  exists m' r', repeated (fenced_line k f n) s' ls m' /\ fence_end f n m' r' /\ ex r r'.
Proof.
  intros k f n Nf L s s' ls m r F R. revert s' r F. induction R as [s N|s a m l z E R IH]; intros s' r F H.
  - destruct F as [F|[-> ->]]; [|exfalso; apply N; exists [], []; split].
    + destruct (fence_end_fore f n _ _ Nf F _ H) as (r' & H' & Fr). exists s', r'. split; [|auto]. constructor. now rewrite <- (applies_ext _ _ _ _ _ (fenced_line_ext k f n Nf) F).
    + intros y (a & j & m & E & _ & L2 & _). destruct a; [|discriminate]. destruct j; [lia|]. cbn in E. injection E as E _. congruence.
    + exists [10%N]. split; [exists 0; split; [reflexivity|]; split; [lia|]; intros _ (t & E); discriminate|]. exists [10%N]. repeat split; auto. apply (end_eol [10%N] []). now left.
  - destruct F as [F|[-> ->]].
    + fwd (fenced_line_ext k f n Nf) F E m' E' Fm. destruct (IH _ _ Fm H) as (y & r' & R' & H' & Fr). exists y, r'. split; [|auto]. now apply (rep_more _ s' a m').
    + exfalso. enough (m = []) as -> by exact (fenced_lines_nil _ _ _ _ _ L R).
      destruct E as (_ & m0 & (j & E1 & _) & y & E2 & N1 & _ & E). destruct j; [|discriminate]. cbn [rep repeat app] in E1. subst m0. destruct a as [|c a]; [|injection E2 as <- _; elim N1; now left].
      cbn [app] in E2. subst y. inversion E as [e r0 Ee X Y|]; subst r0; destruct Ee as [Ee|Ee]; subst e; cbn [app] in X; [injection X as X; exact X|discriminate].
Qed.
Lemma fenced_fore : fore ex r_fenced.
Proof.
  intros s s' F x r E. inversion E as [k f n m info m1 ls m2 r0 L1 If L2 B Hi Hr He E1 E2 E3]; subst. pose proof (fence_char f If) as Nf.
  off F (sp_free k) y Fy. off Fy (rep_free n f Nf) m' Fm.
  assert (I : exists m1', (info = None /\ line_end m' m1' \/ exists v, info = Some v /\ text_line m' v m1') /\ ex m1 m1').
  { destruct Hi as [[-> H]|(v & -> & H)]; [endf end_ext Fm H z Ez Fz|fwd text_ext Fm H z Ez Fz]; exists z; eauto. }
  destruct I as (m1' & I & F1). destruct (fenced_body k f n Nf L2 _ _ _ _ _ F1 Hr He) as (m2' & r' & R & Er & Fr). close r' Fr.
  apply (R_fenced k f n m' info m1' ls m2' r'); try assumption. now rewrite <- (begins_ext f _ _ Fm).
Qed.
(** a line that opens a fence *)
Definition fence_start (s : str) : Prop := exists k f t, s = rep k c_sp ++ rep 3 f ++ t /\ k <= 3 /\ In f (lit "`~").
Lemma fenced_start : forall s, applies r_fenced s -> fence_start s.
Proof.
  intros s (x & r & E). inversion E as [k f n m info m1 ls m2 r0 L1 If L2 B Hi Hr He]; subst. exists k, f, (rep (n - 3) f ++ m). split; [|now split].
  do 3 (destruct n as [|n]; [lia|]). cbn [rep repeat app Nat.sub]. now rewrite Nat.sub_0_r.
Qed.
Lemma start_ext : forall s s', ext s s' -> fence_start s' -> fence_start s.
Proof.
  intros s s' F (k & f & t & -> & L & I). back F (sp_free k) m Fm. back Fm (rep_free 3 f (fence_char f I)) y Fy. now exists k, f, y.
Qed.
Lemma code_fore : fore ex r_code_block.
Proof.
  intros s s' F v r E; inversion E as [s0 ls r0 N R|s0 h r0 R]; subst.
  - fwd (repeated_ext _ _ code_line_ext code_line_dead) F R r' R' Fr. close r' Fr. now constructor.
  - destruct (fenced_fore _ _ F _ _ R) as (r' & R' & Fr). close r' Fr. now constructor.
Qed.
Lemma code_aft : forall s s', ext s s' -> applies r_code_block s' -> applies r_code_block s \/ fence_start s.
Proof.
  intros s s' F (x & r & E). inversion E as [s0 ls r0 N R|s0 h r0 R]; subst.
  - left. bwd (repeated_ext _ _ code_line_ext code_line_dead) F R r' R' Fr. exists (HCode (CodeBlock Indented (join [c_nl] ls))), r'. now constructor.
  - right. apply (start_ext _ _ F). apply fenced_start. now exists x, r.
Qed.

(** ** Headings, breaks *)
Lemma longest_ext : forall f w m m', ext m m' -> (longest f (w ++ m) w m <-> longest f (w ++ m') w m').
Proof.
  intros f w m m' Fm. unfold longest. split; intros (_ & A & B); (split; [reflexivity|split; [exact A|]]); intros c C; apply B; now apply (begins_ext c _ _ Fm).
Qed.
Lemma atx_ext : forall bare, ins ex (r_atx bare).
Proof.
  intros bare. split; intros s s' F v r E; inversion E as [n w m t r0 L B W Z T]; subst.
  - off F (rep_free n (ch "#") ltac:(discriminate)) x Fx. off Fx (spaces_free w (proj1 (proj2 W))) m' Fm. fwd text_ext Fm T r' T' Fr. close r' Fr.
    constructor; try assumption; [now rewrite <- (begins_ext _ _ _ Fx)|]. now apply (longest_ext is_space w m m' Fm).
  - back F (rep_free n (ch "#") ltac:(discriminate)) x Fx. back Fx (spaces_free w (proj1 (proj2 W))) m' Fm. bwd text_ext Fm T r' T' Fr. close r' Fr.
    constructor; try assumption; [now rewrite (begins_ext _ _ _ Fx)|]. now apply (longest_ext is_space w m' m Fm).
Qed.
Lemma underline_char : forall c l, In (c, l) [(ch "=", Level1); (ch "-", Level2)] -> c <> 10%N.
Proof. intros c l [X|[X|[]]]; injection X as <- _; discriminate. Qed.
Lemma underline_ext : ins ex underline.
Proof.
  split; intros s s' F v r (k & c & n & w & m & -> & L1 & L2 & I & W & E).
  - off F (sp_free k) x Fx. off Fx (rep_free n c (underline_char _ _ I)) y Fy. off Fy (spaces_free w W) m' Fm. endf end_ext Fm E r' E' Fr. close r' Fr. exists k, c, n, w, m'. tauto.
  - back F (sp_free k) x Fx. back Fx (rep_free n c (underline_char _ _ I)) y Fy. back Fy (spaces_free w W) m' Fm. endb end_ext Fm E r' E' Fr. close r' Fr. exists k, c, n, w, m'. tauto.
Qed.
Lemma underline_dead : dead underline.
Proof.
  apply dead_lf. intros s (t & ->) (l & r & k & c & n & w & m & E & _ & L & I & _). destruct k; [|discriminate]. destruct n; [lia|]. cbn in E. injection E as E _. symmetry in E. revert E. now apply underline_char with l.
Qed.
Lemma break_char : forall c, In c (lit "-_*") -> c <> 10%N.
Proof. intros c [X|[X|[X|[]]]]; subst c; discriminate. Qed.
Lemma break_ext : ins ex r_break_line.
Proof.
  split; intros s s' F v r H; inversion H as [k c n w m r0 L1 L2 I W E]; subst.
  - off F (sp_free k) x Fx. off Fx (rep_free n c (break_char _ I)) y Fy. off Fy (spaces_free w W) m' Fm. endf end_ext Fm E r' E' Fr. close r' Fr. now constructor.
  - back F (sp_free k) x Fx. back Fx (rep_free n c (break_char _ I)) y Fy. back Fy (spaces_free w W) m' Fm. endb end_ext Fm E r' E' Fr. close r' Fr. now constructor.
Qed.

(** ** Quotes *)
Lemma quote_line_ext : ins ex quote_line.
Proof.
  split; intros s s' F v r (k & m & -> & L & E).
  - off F (sp_free k) x Fx. off1 Fx m' Fm. fwd plain_ext Fm E r' E' Fr. close r' Fr. exists k, m'. tauto.
  - back F (sp_free k) x Fx. back1 Fx m' Fm. bwd plain_ext Fm E r' E' Fr. close r' Fr. exists k, m'. tauto.
Qed.
Lemma quote_line_dead : dead quote_line.
Proof. apply dead_lf. intros s (t & ->) (v & r & k & m & E & _). destruct k; discriminate. Qed.
Definition quote_lines_ext := repeated_ext _ _ quote_line_ext quote_line_dead.
Lemma quote_ext : ins ex r_quote.
Proof.
  split; intros s s' F v r H; inversion H as [s0 ls r0 N R B]; subst.
  - fwd quote_lines_ext F R r' R' Fr. close r' Fr. now constructor.
  - bwd quote_lines_ext F R r' R' Fr. close r' Fr. now constructor.
Qed.
Lemma alert_ext : forall u, ins ex (r_alert u).
Proof.
  intros up. split; intros s s' F v r H; inversion H as [s0 l ls r0 u name ty R T U A B]; subst.
  - fwd quote_lines_ext F R r' R' Fr. close r' Fr. now apply (R_alert up s' l ls r' u name ty).
  - bwd quote_lines_ext F R r' R' Fr. close r' Fr. now apply (R_alert up s l ls r' u name ty).
Qed.

(** ** Lists *)
Lemma prefix_ext : forall A (R : rule A), prefix_rule R -> ins ext R.
Proof.
  intros A R H. split; intros s s' F x r E; destruct (H _ _ _ E) as (t & -> & N & P).
  - off F N r' Fr. close r' Fr. apply P.
  - back F N r' Fr. close r' Fr. apply P.
Qed.
Lemma item_empty_ext : ins ex item_empty.
Proof.
  split; intros s s' F x r H; inversion H as [k y kind w m r0 L M W E]; subst; destruct (marker_prefix _ _ _ M) as (t & -> & N & P); rewrite diff_len.
  - off F (sp_free k) a Fa. off Fa N c Fc. off Fc (spaces_free w W) m' Fm. endf end_ext Fm E r' E' Fr. close r' Fr. rewrite <- (diff_len t (w ++ m')). now constructor.
  - back F (sp_free k) a Fa. back Fa N c Fc. back Fc (spaces_free w W) m' Fm. endb end_ext Fm E r' E' Fr. close r' Fr. rewrite <- (diff_len t (w ++ m')). now constructor.
Qed.
Lemma item_task_ext : ins ex item_task.
Proof.
  split; intros s s' F x r H; inversion H as [k y kind j t m1 m r0 L M Lj T E]; subst; destruct (marker_prefix _ _ _ M) as (p & -> & N & P); destruct (task_prefix _ _ _ T) as (q & -> & N2 & Q); rewrite gap_len.
  - off F (sp_free k) a Fa. off Fa N e Fe. off Fe (sp_free j) c Fc. off Fc N2 m' Fm. endf end_ext Fm E r' E' Fr. close r' Fr. rewrite <- (gap_len p j (q ++ m')). now apply (Item_task k _ kind j t (q ++ m') m' r').
  - back F (sp_free k) a Fa. back Fa N e Fe. back Fe (sp_free j) c Fc. back Fc N2 m' Fm. endb end_ext Fm E r' E' Fr. close r' Fr. rewrite <- (gap_len p j (q ++ m')). now apply (Item_task k _ kind j t (q ++ m') m' r').
Qed.
Lemma task_sp : forall m m', ext m m' -> ((exists x y, task_at m x (c_sp :: y)) <-> (exists x y, task_at m' x (c_sp :: y))).
Proof.
  intros m m' F. split; intros (x & y & T).
  - fwd (prefix_ext _ _ task_prefix) F T r T' Fr. off1 Fr z Fz. eauto.
  - bwd (prefix_ext _ _ task_prefix) F T r T' Fr. back1 Fr z Fz. eauto.
Qed.
Lemma item_text_ext : ins ex item_text.
Proof.
  split; intros s s' F x r H; inversion H as [k y kind j m1 t m v r0 L M Lj B T E]; subst; destruct (marker_prefix _ _ _ M) as (p & -> & N & P); rewrite gap_len.
  - off F (sp_free k) a Fa. off Fa N e Fe. off Fe (sp_free j) c Fc.
    assert (X : exists m', ((exists x, t = Some x /\ task_at c x (c_sp :: m')) \/ (t = None /\ m' = c /\ forall x y, ~ task_at c x (c_sp :: y))) /\ ext m m').
    { destruct T as [(x & -> & T)|(-> & -> & T)].
      - fwd (prefix_ext _ _ task_prefix) Fc T z T' Fz. off1 Fz m' Fm. exists m'. split; [left; eauto|exact Fm].
      - exists c. split; [right|exact Fc]. split; [reflexivity|]. split; [reflexivity|]. intros x y Y. destruct (proj2 (task_sp _ _ Fc)) as (x' & y' & Z); [eauto|]. exact (T _ _ Z). }
    destruct X as (m' & X & Fm). fwd plain_ext Fm E r' E' Fr. close r' Fr. rewrite <- (gap_len p j c). apply (Item_text k _ kind j c t m' v r'); try assumption; [apply P|].
    now rewrite <- (begins_ext _ _ _ Fc).
  - back F (sp_free k) a Fa. back Fa N e Fe. back Fe (sp_free j) c Fc.
    assert (X : exists m', ((exists x, t = Some x /\ task_at c x (c_sp :: m')) \/ (t = None /\ m' = c /\ forall x y, ~ task_at c x (c_sp :: y))) /\ ext m' m).
    { destruct T as [(x & -> & T)|(-> & -> & T)].
      - bwd (prefix_ext _ _ task_prefix) Fc T z T' Fz. back1 Fz m' Fm. exists m'. split; [left; eauto|exact Fm].
      - exists c. split; [right|exact Fc]. split; [reflexivity|]. split; [reflexivity|]. intros x y Y. destruct (proj1 (task_sp _ _ Fc)) as (x' & y' & Z); [eauto|]. exact (T _ _ Z). }
    destruct X as (m' & X & Fm). bwd plain_ext Fm E r' E' Fr. close r' Fr. rewrite <- (gap_len p j c). apply (Item_text k _ kind j c t m' v r'); try assumption; [apply P|].
    now rewrite (begins_ext _ _ _ Fc).
Qed.
Lemma item_start_ext : ins ex item_start.
Proof. apply first_ext. repeat apply Forall_cons; [apply item_empty_ext|apply item_task_ext|apply item_text_ext|apply Forall_nil]. Qed.
Lemma other_ext : forall k n s s', ext s s' -> (other_item k n s <-> other_item k n s').
Proof.
  intros k n s s' F. split; intros (j & m & k' & r & -> & L & M & Q).
  - off F (sp_free j) m' Fm. fwd (prefix_ext _ _ marker_prefix) Fm M r' M' Fr. exists j, m', k', r'. auto.
  - back F (sp_free j) m' Fm. bwd (prefix_ext _ _ marker_prefix) Fm M r' M' Fr. exists j, m', k', r'. auto.
Qed.
Lemma lf_inv : forall s r, line_end (10%N :: s) r -> r = s.
Proof. intros s r H. inversion H as [e r0 Ee X Y|]; subst r0; destruct Ee as [Ee|Ee]; subst e; cbn [app] in X; [now injection X|discriminate]. Qed.
Lemma crlf_inv : forall s r, line_end (13%N :: 10%N :: s) r -> r = s.
Proof. intros s r H. inversion H as [e r0 Ee X Y|]; subst r0; destruct Ee as [Ee|Ee]; subst e; cbn [app] in X; [discriminate|now injection X]. Qed.
(** blank lines *)
Lemma blank_line_ext : ins ex blank_line.
Proof.
  assert (V : forall (w m v r r' : str), w ++ m = v ++ r -> line_end m r -> m <> [] -> exists e, m = e ++ r /\ is_eol e /\ v = w ++ e).
  { intros w m v r r' E L N. inversion L as [e r0 Ee|]; subst; [|congruence]. exists e. split; [reflexivity|]. split; [exact Ee|]. apply (app_inv_tail r). now rewrite <- app_assoc. }
  assert (K : forall m m' r r' e, ext m m' -> m = e ++ r -> is_eol e -> line_end m' r' -> ex r r' -> m' = e ++ r').
  { intros m m' r r' e (u & -> & ->) E Ee L X.
    destruct Ee as [-> | ->]; destruct u as [|c u]; cbn [app] in *; try discriminate.
    - apply lf_inv in L. now subst.
    - injection E as -> E. apply lf_inv in L. now subst.
    - injection E as -> E. destruct u as [|d u]; cbn [app] in *; injection E as E; subst; apply crlf_inv in L; now subst. }
  assert (K' : forall m m' r r' e, ext m m' -> m' = e ++ r' -> is_eol e -> line_end m r -> ex r r' -> m = e ++ r).
  { intros m m' r r' e (u & -> & ->) E Ee L X.
    destruct Ee as [-> | ->]; destruct u as [|c u]; cbn [app] in *; try discriminate.
    - apply lf_inv in L. now subst.
    - injection E as -> E. apply lf_inv in L. now subst.
    - injection E as -> E. destruct u as [|d u]; cbn [app] in *; injection E as E; subst; apply crlf_inv in L; now subst. }
  split; intros s s' F v r (E & w & m & -> & W & L).
  - off F (spaces_free w W) m' Fm. endf end_ext Fm L r' L' Fr. close r' Fr. destruct (V w m v r r' E L (proj1 (ext_ne _ _ Fm))) as (e & Em & Ee & ->).
    split; [|exists w, m'; auto]. rewrite <- app_assoc. f_equal. now apply (K m m' r r' e).
  - back F (spaces_free w W) m' Fm. endb end_ext Fm L r' L' Fr. close r' Fr. destruct (V w m v r r' E L (proj2 (ext_ne _ _ Fm))) as (e & Em & Ee & ->).
    split; [|exists w, m'; auto]. rewrite <- app_assoc. f_equal. now apply (K' m' m r' r e).
Qed.
Lemma blanks_last : forall bl m, ~ repeated blank_line [10%N] bl m.
Proof.
  intros bl m H. inversion H as [s N|s a y l r E R]; subst.
  - apply N. exists [10%N], []. split; [reflexivity|]. exists [], [10%N]. split; [reflexivity|]. split; [apply Forall_nil|]. apply (end_eol [10%N] []). now left.
  - apply blanks_ne in R. destruct R as [_ R]. destruct E as (_ & w & z & E & W & L). destruct w as [|c w]; [|injection E as <- _; inversion W; discriminate].
    cbn [app] in E. subst z. apply lf_inv in L. apply R; exact L.
Qed.
Lemma blanks_b : forall bl m, repeated blank_line (10%N :: b) bl m -> exists bl', repeated blank_line b bl' m.
Proof.
  intros bl m H. inversion H as [s N|s a y l r E R]; subst.
  - exfalso. apply N. exists [10%N], b. split; [reflexivity|]. exists [], (10%N :: b). split; [reflexivity|]. split; [apply Forall_nil|]. apply (end_eol [10%N] b). now left.
  - exists l. enough (y = b) as <- by exact R. destruct E as (_ & w & z & E & W & L). destruct w as [|c w]; [|injection E as <- _; inversion W; discriminate].
    cbn [app] in E. subst z. now apply lf_inv in L.
Qed.
Lemma blanks_fore : forall s s', ext s s' -> forall bl r, repeated blank_line s bl r -> exists r', repeated blank_line s' bl r' /\ ext r r'.
Proof.
  intros s s' F bl r E. revert s' F. induction E as [s N|s a m l r E R IH]; intros s' F.
  - exists s'. split; [|exact F]. constructor. now rewrite <- (applies_ext _ _ _ _ _ blank_line_ext F).
  - fwd blank_line_ext F E m' E' Fm. destruct Fm as [Fm|[-> ->]]; [|now apply blanks_last in R]. destruct (IH _ Fm) as (r' & E2 & Fr). close r' Fr. now apply (rep_more blank_line s' a m').
Qed.
Lemma blanks_aft : forall s s', ext s s' -> forall bl r', repeated blank_line s' bl r' -> (exists r, repeated blank_line s bl r /\ ext r r') \/ exists bl', repeated blank_line b bl' r'.
Proof.
  intros s s' F bl r E. revert s F. induction E as [s' N|s' a m l r E R IH]; intros s F.
  - left. exists s. split; [|exact F]. constructor. now rewrite (applies_ext _ _ _ _ _ blank_line_ext F).
  - bwd blank_line_ext F E m' E' Fm. destruct Fm as [Fm|[-> ->]]; [|right; now apply blanks_b in R]. destruct (IH _ Fm) as [(r' & E2 & Fr)|X]; [left; close r' Fr; now apply (rep_more blank_line s a m')|now right].
Qed.
Section Unindented.
Hypothesis Hb : ~ indented b.
Lemma item_line_ext : forall k n, 1 <= n -> ins ex (item_line k n).
Proof.
  intros k n L.
  assert (X : ins ex (first_of [ (fun s v r => exists m, strip n s m /\ text_line m v r);
             (fun s v r => exists bl m v', bl <> [] /\ repeated blank_line s bl (rep n c_sp ++ m) /\ text_line m v' r /\ v = concat bl ++ v') ])).
  { apply first_ext. apply Forall_cons; [|apply Forall_cons; [|apply Forall_nil]]; split; intros s s' F v.
    - intros r (m & M & T). endf (strip_ext n) F M m' M' Fm. fwd text_ext Fm T r' T' Fr. close r' Fr. eauto.
    - intros r (m & M & T). endb (strip_ext n) F M m' M' Fm. bwd text_ext Fm T r' T' Fr. close r' Fr. eauto.
    - intros r (bl & m & v' & N & R & T & ->). destruct (blanks_fore _ _ F _ _ R) as (a & R' & Fa). off Fa (sp_free n) m' Fm. fwd text_ext Fm T r' T' Fr. close r' Fr. exists bl, m', v'. auto.
    - intros r (bl & m & v' & N & R & T & ->). destruct (blanks_aft _ _ F _ _ R) as [(a & R' & Fa)|(bl' & R')].
      + back Fa (sp_free n) m' Fm. bwd text_ext Fm T r' T' Fr. close r' Fr. exists bl, m', v'. auto.
      + exfalso. apply Hb. exists bl', (rep n c_sp ++ m). split; [exact R'|]. destruct n as [|n]; [lia|]. eexists. reflexivity. }
  unfold item_line. split; intros s s' F v r (N1 & N2 & E).
  - fwd X F E r' E' Fr. close r' Fr. rewrite <- (applies_ext _ _ _ _ _ break_ext F), <- (other_ext _ _ _ _ F). auto.
  - bwd X F E r' E' Fr. close r' Fr. rewrite (applies_ext _ _ _ _ _ break_ext F), (other_ext _ _ _ _ F). auto.
Qed.
Lemma text_lf : forall s v r, ~ text_line (10%N :: s) v r.
Proof. intros s v r (m & E & N & N1 & _). destruct v as [|c v]; [congruence|]. injection E as <- _. apply N1. now left. Qed.
Lemma item_line_dead : forall k n, 1 <= n -> dead (item_line k n).
Proof.
  intros k n L.
  assert (X : forall s v r, ~ (exists m, strip n (10%N :: s) m /\ text_line m v r)).
  { intros s v r (m & (j & E & _) & T). destruct j; [|discriminate]. cbn [rep repeat app] in E. subst m. exact (text_lf _ _ _ T). }
  split; intros (v & r & _ & _ & H); cbn [first_of] in H; destruct H as [H|[_ [(bl & m & v' & N & R & T & _)|[_ []]]]]; try exact (X _ _ _ H).
  - exact (blanks_last _ _ R).
  - destruct (blanks_b _ _ R) as (bl' & R'). apply Hb. exists bl', (rep n c_sp ++ m). split; [exact R'|]. destruct n as [|n]; [lia|]. eexists. reflexivity.
Qed.
Lemma marker_pos : forall s k m, marker_at s k m -> len m < len s.
Proof. intros s k m H. inversion H; subst; rewrite ?app_length; cbn; lia. Qed.
Lemma start_pos : forall s k n t v m, item_start s (k, n, t, v) m -> 1 <= n.
Proof.
  intros s k n t v m H. cbn [item_start first_of] in H. destruct H as [H|[_ [H|[_ [H|[_ []]]]]]]; inversion H; subst; try lia.
  match goal with M : marker_at _ _ _ |- _ => apply marker_pos in M; rewrite app_length in M; unfold rep in M; rewrite repeat_length in M end. lia.
Qed.
Lemma item_ext : ins ex item_at.
Proof.
  split; intros s s' F x r H; inversion H as [s0 k n t v m ls r0 S R]; subst; pose proof (start_pos _ _ _ _ _ _ S) as L.
  - fwd item_start_ext F S m' S' Fm. destruct (repeated_fore _ _ (item_line_ext k n L) (item_line_dead k n L) _ _ Fm _ _ R) as (r' & R' & Fr). close r' Fr. now apply (Item s' k n t v m' ls).
  - bwd item_start_ext F S m' S' Fm. destruct (repeated_aft _ _ (item_line_ext k n L) (item_line_dead k n L) _ _ Fm _ _ R) as (r' & R' & Fr). close r' Fr. now apply (Item s k n t v m' ls).
Qed.
Lemma marker_lf : forall s k r, ~ marker_at (10%N :: s) k r.
Proof.
  intros s k r H. destruct (marker_prefix _ _ _ H) as (t & E & N & P). destruct t as [|c t]; [|injection E as <- _; apply N; now left].
  cbn [app] in E. subst r. apply marker_pos in H. lia.
Qed.
Lemma item_dead : dead item_at.
Proof.
  apply dead_lf. intros s (t & ->) (x & r & H). inversion H as [s0 k n y v m ls r0 S R]; subst. cbn [item_start first_of] in S.
  assert (X : forall j z kind q, 10%N :: t = rep j c_sp ++ z -> marker_at z kind q -> False).
  { intros j z kind q E M. destruct j; [|discriminate]. cbn [rep repeat app] in E. subst z. exact (marker_lf _ _ _ M). }
  destruct S as [S|[_ [S|[_ [S|[_ []]]]]]]; inversion S; subst; eapply X; eauto.
Qed.
Lemma list_ext : ins ex r_list.
Proof.
  pose proof (repeated_ext _ _ item_ext item_dead) as I.
  split; intros s s' F x r H; inversion H as [s0 k y items r0 R]; subst.
  - fwd I F R r' R' Fr. close r' Fr. now constructor.
  - bwd I F R r' R' Fr. close r' Fr. now constructor.
Qed.
End Unindented.

(** ** Tables *)
Lemma stop_ext : forall s s', ext s s' -> ((begins_with (ch "|") s \/ (exists r, line_end s r)) <-> (begins_with (ch "|") s' \/ (exists r, line_end s' r))).
Proof. intros s s' F. now rewrite (begins_ext _ _ _ F), (line_end_ext _ _ F). Qed.
Lemma lf_end : forall s, line_end (10%N :: s) s.
Proof. intros s. apply (end_eol [10%N] s). now left. Qed.
Lemma cell_text_ext : ins ext cell_text.
Proof.
  split; intros s s' F t r H.
  - revert s' F. induction H as [s E|s t r _ IH|c s t r N1 N2 N3 H IH]; intros s' F.
    + exists s'. split; [|exact F]. apply cell_stop. now apply (stop_ext s).
    + off1 F a Fa. off1 Fa e Fe. destruct (IH _ Fe) as (r' & E & Fr). close r' Fr. now constructor.
    + assert (Nc : c <> 10%N) by (intros ->; exact (N2 s (lf_end s))).
      destruct (ext_off1 _ _ _ Nc F) as (a & -> & Fa). destruct (IH _ Fa) as (r' & E & Fr). close r' Fr. constructor; try assumption.
      * intros y Y. destruct (proj2 (line_end_ext _ _ F)) as (z & Z); [eauto|]. exact (N2 _ Z).
      * now rewrite <- (begins_ext _ _ _ Fa).
  - revert s F. induction H as [s' E|s' t r _ IH|c s' t r N1 N2 N3 H IH]; intros s F.
    + exists s. split; [|exact F]. apply cell_stop. now apply (stop_ext s s').
    + back1 F a Fa. back1 Fa e Fe. destruct (IH _ Fe) as (r' & E & Fr). close r' Fr. now constructor.
    + assert (Nc : c <> 10%N) by (intros ->; exact (N2 s' (lf_end s'))).
      destruct (ext_back1 _ _ _ Nc F) as (a & -> & Fa). destruct (IH _ Fa) as (r' & E & Fr). close r' Fr. constructor; try assumption.
      * intros y Y. destruct (proj1 (line_end_ext _ _ F)) as (z & Z); [eauto|]. exact (N2 _ Z).
      * now rewrite (begins_ext _ _ _ Fa).
Qed.
Lemma cell_ext : ins ext cell_at.
Proof.
  split; intros s s' F t r [N E]; [fwd cell_text_ext F E r' E' Fr|bwd cell_text_ext F E r' E' Fr]; close r' Fr; now split.
Qed.
Lemma cells_ext : forall A (cell : rule A), ins ext cell -> ins ex (cells cell).
Proof.
  intros A cell H. split; intros s s' F l r E.
  - revert s' F. induction E as [s x m m1 r C M L|s x m l r C _ IH]; intros s' F; fwd H F C m' C' Fm.
    + destruct M as [<-|M].
      * endf end_ext Fm L r' L' Fr. close r' Fr. now apply (cells_last cell s' x m' m' r'); [|left|].
      * subst m. off1 Fm a Fa. endf end_ext Fa L r' L' Fr. close r' Fr. now apply (cells_last cell s' x (ch "|" :: a) a r'); [|right|].
    + off1 Fm a Fa. destruct (IH _ Fa) as (r' & E' & Fr). close r' Fr. now apply (cells_more cell s' x a).
  - revert s F. induction E as [s' x m m1 r C M L|s' x m l r C _ IH]; intros s F; bwd H F C m' C' Fm.
    + destruct M as [<-|M].
      * endb end_ext Fm L r' L' Fr. close r' Fr. now apply (cells_last cell s x m' m' r'); [|left|].
      * subst m. back1 Fm a Fa. endb end_ext Fa L r' L' Fr. close r' Fr. now apply (cells_last cell s x (ch "|" :: a) a r'); [|right|].
    + back1 Fm a Fa. destruct (IH _ Fa) as (r' & E' & Fr). close r' Fr. now apply (cells_more cell s x a).
Qed.
Lemma row_ext : forall A (cell : rule A), ins ext cell -> ins ex (row cell).
Proof.
  intros A cell H. split; intros s s' F l r (k & m & -> & L & E).
  - off F (sp_free k) a Fa. off1 Fa m' Fm. fwd (cells_ext _ _ H) Fm E r' E' Fr. close r' Fr. exists k, m'. auto.
  - back F (sp_free k) a Fa. back1 Fa m' Fm. bwd (cells_ext _ _ H) Fm E r' E' Fr. close r' Fr. exists k, m'. auto.
Qed.
Lemma row_dead : forall A (cell : rule A), dead (row cell).
Proof. intros A cell. apply dead_lf. intros s (t & ->) (v & r & k & m & E & _). destruct k; discriminate. Qed.
Lemma table_ext : ins ex r_table.
Proof.
  pose proof (row_ext _ _ cell_ext) as H1. pose proof (row_ext _ _ (prefix_ext _ _ align_prefix)) as H2.
  split; intros s s' F x r H; inversion H as [s0 header m1 al m2 rows r0 R1 R2 L R3]; subst.
  - fwd H1 F R1 m1' R1' F1. destruct F1 as [F1|[-> ->]]; [|elim (proj1 (row_dead _ align_at)); now exists al, m2]. fwd H2 F1 R2 m2' R2' F2.
    destruct (repeated_fore _ _ H1 (row_dead _ _) _ _ F2 _ _ R3) as (r' & R3' & Fr). close r' Fr. now apply (R_table s' header m1' al m2').
  - bwd H1 F R1 m1' R1' F1. destruct F1 as [F1|[-> ->]]; [|elim (proj2 (row_dead _ align_at)); now exists al, m2]. bwd H2 F1 R2 m2' R2' F2.
    destruct (repeated_aft _ _ H1 (row_dead _ _) _ _ F2 _ _ R3) as (r' & R3' & Fr). close r' Fr. now apply (R_table s header m1' al m2').
Qed.
Lemma line_ext : ins ex r_line.
Proof.
  split; intros s s' F x r H; inversion H as [s0 m v r0 M T]; subst.
  - endf (strip_ext 3) F M m' M' Fm. fwd text_ext Fm T r' T' Fr. close r' Fr. now apply (R_line s' m').
  - endb (strip_ext 3) F M m' M' Fm. bwd text_ext Fm T r' T' Fr. close r' Fr. now apply (R_line s m').
Qed.

(** ** Lines that begin with a given string *)
Lemma begins_tail : forall p s r, p <> [] -> tail s r -> line_begins p r -> line_begins p s.
Proof.
  intros p s r N [->|(t & -> & K)] (u & k & v & E & U); [now exists u, k, v|]. exists (t ++ u), k, v. split; [now rewrite E, <- app_assoc|].
  destruct U as [->|(y & ->)]; [|right; exists (t ++ y); now rewrite app_assoc]. rewrite app_nil_r. destruct K as [->|K]; [|now right].
  exfalso. symmetry in E. apply app_eq_nil in E. destruct E as [_ E]. apply app_eq_nil in E. destruct E as [_ E]. apply app_eq_nil in E. tauto.
Qed.
Lemma fence_tail : forall s r, tail s r -> fence_line r -> fence_line s.
Proof. intros s r T [H|H]; [left|right]; (eapply begins_tail; [discriminate|exact T|exact H]). Qed.
Lemma start_line : forall c r, fence_start (c ++ r) -> ends_in 10%N c -> fence_line c.
Proof.
  intros c r (k & f & t & E & _ & I) (u & ->). rewrite <- app_assoc in E. symmetry in E. cbn [app] in E.
  destruct I as [<-|[<-|[]]]; rewrite app_assoc in E; apply free_split in E.
  2, 4: intros J; apply in_app_or in J; destruct J as [J|J]; [now apply (rep_free k c_sp) in J|apply (rep_free 3 _) in J; [exact J|discriminate]].
  - destruct E as (w & -> & _). left. exists [], k, (w ++ [10%N]). split; [now rewrite <- !app_assoc|now left].
  - destruct E as (w & -> & _). right. exists [], k, (w ++ [10%N]). split; [now rewrite <- !app_assoc|now left].
Qed.
Lemma nn_repeated : forall A (R : rule A), (forall s x r, R s x r -> len r < len s) -> forall s, ~ ~ exists l r, repeated R s l r.
Proof.
  intros A R H s. remember (len s) as n eqn:L. revert s L. induction n as [n IH] using lt_wf_ind. intros s -> K. apply K. exists [], s. constructor. intros (x & m & E).
  apply (IH (len m) (H _ _ _ E) m eq_refl). intros (l & r & Q). apply K. exists (x :: l), r. now apply (rep_more R s x m).
Qed.

Lemma labels_tail : forall fn s r, labels_closed fn s -> tail s r -> labels_closed fn r.
Proof.
  intros fn s r H [<-|(t & -> & K)]; [exact H|]. intros u k v -> U. apply (H (t ++ u) k v); [now rewrite <- !app_assoc|].
  right. destruct U as [->|(y & ->)].
  - destruct K as [K|K]; [|now rewrite app_nil_r]. cbn [app] in K. apply app_eq_nil in K. destruct K; destruct k; discriminate.
  - exists (t ++ y). now rewrite app_assoc.
Qed.
(** the two sources read behind a label *)
Lemma labels_ext : forall fn s s', ext s s' -> labels_closed fn s -> forall k v, s = rep k c_sp ++ ch "[" :: v \/ s' = rep k c_sp ++ ch "[" :: v ->
  exists w z z', s = rep k c_sp ++ ch "[" :: w ++ ch "]" :: z /\ s' = rep k c_sp ++ ch "[" :: w ++ ch "]" :: z' /\ ext z z' /\
    ~ In (ch "]") w /\ ~ ends_in (ch "\") w /\ (begins_with (ch ":") z -> untitled z \/ fn /\ footnote_text w z).
Proof.
  intros fn s s' F C k v H. assert (X : exists m, s = rep k c_sp ++ ch "[" :: m /\ exists m', s' = rep k c_sp ++ ch "[" :: m' /\ ext m m').
  { destruct H as [-> | ->].
    - off F (sp_free k) a Fa. destruct (ext_off1 (ch "[") _ _ ltac:(discriminate) Fa) as (m' & -> & Fm). eauto.
    - back F (sp_free k) a Fa. destruct (ext_back1 (ch "[") _ _ ltac:(discriminate) Fa) as (m & -> & Fm). eauto. }
  clear H v. destruct X as (m & -> & m' & -> & F2). destruct (C [] k m eq_refl) as (w & z & -> & I1 & I2 & N); [now left|].
  destruct F2 as (u & E & ->). apply app_eq_app in E. destruct E as (l & [[-> Y]|[-> Y]]).
  - exfalso. assert (I : In (ch "]") (l ++ ch "]" :: z)) by (apply in_or_app; right; now left). destruct l as [|c l].
    + cbn [app] in Y. discriminate.
    + destruct l as [|d l]; [discriminate|]. destruct l as [|e l]; discriminate.
  - destruct l as [|c l]; [discriminate|]. cbn [app] in Y. injection Y as <- ->. exists w, (l ++ [10%N; 10%N]), (l ++ 10%N :: 10%N :: b).
    split; [reflexivity|]. split; [now rewrite <- app_assoc|]. split; [now exists l|]. auto.
Qed.
(** an unescaped "]" ends a label *)
Lemma label_first : forall raw t w z r, label_text raw t -> raw ++ ch "]" :: r = w ++ ch "]" :: z -> ~ In (ch "]") w -> ~ ends_in (ch "\") w -> raw = w.
Proof.
  intros raw t w z r H. revert w. induction H as [|s t H IH|c s t N1 N2 H IH]; intros w E I1 I2.
  - destruct w as [|d w]; [reflexivity|]. cbn [app] in E. injection E as <- _. elim I1. now left.
  - destruct w as [|d w]; [discriminate|]. cbn [app] in E. injection E as <- E. destruct w as [|d w]; [elim I2; now exists []|]. cbn [app] in E. injection E as <- _. elim I1. right. now left.
  - destruct w as [|d w]; [cbn [app] in E; injection E as -> _; now elim N1|]. cbn [app] in E. injection E as <- E. f_equal. apply IH; [exact E|intro J; apply I1; now right|]. intros (u & ->). apply I2. now exists (c :: u).
Qed.
Lemma label_plain : forall a x v y : str, a ++ ch "]" :: x = v ++ ch "]" :: y -> ~ In (ch "]") a -> ~ In (ch "]") v -> a = v /\ x = y.
Proof.
  induction a as [|c a IH]; intros x v y E A V; destruct v as [|d v]; cbn [app] in E.
  - injection E as ->. auto. - injection E as <- _. elim V. now left. - injection E as -> _. elim A. now left.
  - injection E as -> E. destruct (IH _ _ _ E) as [-> ->]; auto; intro J; [apply A|apply V]; now right.
Qed.
(** *** Definitions *)
Lemma footnote_line_ext : ins ex footnote_line.
Proof.
  split; intros s s' F v r (m & -> & E).
  - off F (sp_free 3) m' Fm. fwd text_ext Fm E r' E' Fr. close r' Fr. exists m'. auto.
  - back F (sp_free 3) m' Fm. bwd text_ext Fm E r' E' Fr. close r' Fr. exists m'. auto.
Qed.
Lemma footnote_line_dead : dead footnote_line.
Proof. apply dead_lf. intros s (t & ->) (x & r & m & E & _). cbn in E. discriminate. Qed.
Lemma footnote_pair : forall fn s s', ext s s' -> labels_closed fn s ->
  (forall x r, r_footnote_def s x r -> exists r', r_footnote_def s' x r' /\ ex r r') /\ (forall x r', r_footnote_def s' x r' -> exists r, r_footnote_def s x r /\ ex r r').
Proof.
  intros fn s s' F C. pose proof (repeated_ext _ _ footnote_line_ext footnote_line_dead) as Rx.
  split; intros x r H; inversion H as [k label m m1 v m2 ls r0 L N1 N2 S T R]; clear H.
  - destruct (labels_ext _ _ _ F C k (ch "^" :: label ++ lit "]:" ++ m)) as (w & z & z' & E & E' & Fz & I1 & _); [left; subst s; reflexivity|]. subst.
    apply app_inv_head in E. injection E as E. assert (E2 := label_plain (ch "^" :: label) (ch ":" :: m) w z E).
    assert (Nl : ~ In (ch "]") (ch "^" :: label)) by (intros [J|J]; [discriminate|exact (N2 J)]). destruct (E2 Nl I1) as [<- <-].
    destruct (ext_off1 (ch ":") _ _ ltac:(discriminate) Fz) as (m' & -> & Fm). endf (strip_ext 3) Fm S m1' S' F1. fwd text_ext F1 T m2' T' F2.
    destruct (repeated_fore _ _ footnote_line_ext footnote_line_dead _ _ F2 _ _ R) as (r' & R' & Fr). close r' Fr. exact (R_footnote_def k label m' m1' v m2' ls r' L N1 N2 S' T' R').
  - destruct (labels_ext _ _ _ F C k (ch "^" :: label ++ lit "]:" ++ m)) as (w & z & z' & E & E' & Fz & I1 & _); [right; subst s'; reflexivity|]. subst.
    apply app_inv_head in E'. injection E' as E'. assert (E2 := label_plain (ch "^" :: label) (ch ":" :: m) w z' E').
    assert (Nl : ~ In (ch "]") (ch "^" :: label)) by (intros [J|J]; [discriminate|exact (N2 J)]). destruct (E2 Nl I1) as [<- <-].
    destruct (ext_back1 (ch ":") _ _ ltac:(discriminate) Fz) as (m' & -> & Fm). endb (strip_ext 3) Fm S m1' S' F1. bwd text_ext F1 T m2' T' F2.
    destruct (repeated_aft _ _ footnote_line_ext footnote_line_dead _ _ F2 _ _ R) as (r' & R' & Fr). close r' Fr. exact (R_footnote_def k label m' m1' v m2' ls r' L N1 N2 S' T' R').
Qed.
(** no empty line inside *)
Definition dense (t : str) : Prop := forall x y, t <> x ++ 10%N :: 10%N :: y.
Lemma dense_inside : forall t c m p y, dense t -> c <> 10%N -> t ++ c :: m = p ++ 10%N :: 10%N :: y -> exists p2, p = t ++ c :: p2 /\ m = p2 ++ 10%N :: 10%N :: y.
Proof.
  intros t c m p y D N E. apply app_eq_app in E. destruct E as (l & [[-> Y]|[-> Y]]).
  - exfalso. destruct l as [|d l]; [injection Y as Y _; symmetry in Y; exact (N Y)|]. destruct l as [|e l]; [injection Y as _ Y _; symmetry in Y; exact (N Y)|]. injection Y as <- <- _. exact (D p l eq_refl).
  - destruct l as [|d l]; [injection Y as Y _; elim (N Y)|]. injection Y as <- ->. now exists l.
Qed.
Lemma dense_prefix : forall t m p y, dense t -> t ++ m = p ++ 10%N :: 10%N :: y -> (exists p2, p = t ++ p2 /\ m = p2 ++ 10%N :: 10%N :: y) \/ t = p ++ [10%N].
Proof.
  intros t m p y D E. apply app_eq_app in E. destruct E as (l & [[-> Y]|[-> Y]]); [|left; now exists l].
  destruct l as [|d l]; [left; exists []; rewrite !app_nil_r; split; [reflexivity|symmetry; exact Y]|]. injection Y as <- Y. destruct l as [|e l]; [now right|]. injection Y as <- _. elim (D p l eq_refl).
Qed.
Lemma free_dense : forall t, ~ In 10%N t -> dense t.
Proof. intros t N x y ->. apply N. apply in_or_app. right. now left. Qed.
Lemma cons_dense : forall c t, c <> 10%N -> dense t -> dense (c :: t).
Proof. intros c t N D [|d x] y E; [injection E as E _; exact (N E)|]. injection E as _ E. exact (D x y E). Qed.
Lemma gap_dense : forall w, one_gap w -> dense w.
Proof.
  intros w (a & e & z & -> & A & Z1 & E) x y H.
  assert (F : forall l, all is_space l -> ~ In 10%N l) by (intros l A1 J; pose proof (proj1 (Forall_forall _ _) A1 _ J); discriminate).
  assert (One : forall l : str, ~ In 10%N l -> forall v, dense v -> dense (l ++ v)).
  { induction l as [|c l IH]; intros N v D; [exact D|]. cbn [app]. apply cons_dense; [intros ->; apply N; now left|]. apply IH; [intro J; apply N; now right|exact D]. }
  assert (Lf : dense (10%N :: z)).
  { intros [|c x'] y' E2; [injection E2 as E2|injection E2 as _ E2]; apply (F z Z1); rewrite E2; [now left|apply in_or_app; right; now left]. }
  revert H. apply (One a (F a A)). destruct E as [-> | [-> | ->]]; cbn [app]; [apply free_dense, F, Z1|exact Lf|apply cons_dense; [discriminate|exact Lf]].
Qed.
Lemma bare_head : forall d, bare_text d -> forall x, d <> 10%N :: x.
Proof. intros d H x E. destruct H; try discriminate; injection E as -> _; discriminate. Qed.
Lemma bare_dense : forall d, bare_text d -> dense d.
Proof.
  intros d H. induction H as [|c s H IH|c s B H IH|a s Ha IHa H IH].
  - intros [|c x] y E; discriminate.
  - intros [|d x] y E; [discriminate|]. injection E as _ E. destruct x as [|e x]; injection E as -> E; [exact (bare_head _ H _ E)|]. exact (IH _ _ E).
  - apply cons_dense; [intros ->; discriminate|exact IH].
  - apply cons_dense; [discriminate|]. intros x y E. destruct (dense_inside a (ch ")") s x y IHa ltac:(discriminate) E) as (p & _ & ->). exact (IH _ _ eq_refl).
Qed.
Lemma dest_head : forall m d r, destination_at m d r -> exists c t, m = c :: t /\ c <> 10%N.
Proof.
  intros m d r H. inversion H as [raw d0 r0 A|d0 r0 N B S|d0 B]; subst.
  - eexists _, _. split; [reflexivity|discriminate].
  - destruct d as [|c d]; [congruence|]. exists c, (d ++ r). split; [reflexivity|]. intros ->. exact (bare_head _ B _ eq_refl).
  - destruct d0 as [|c d]; [now exists (ch "\"), []|]. exists c, (d ++ lit "\"). split; [reflexivity|]. intros ->. exact (bare_head _ B _ eq_refl).
Qed.
Lemma angle_free : forall raw t, angle_text raw t -> ~ In 10%N raw.
Proof. intros raw t H. induction H as [|c s t I H IH|c s t N K H IH]; intros J; [destruct J| |]. - destruct J as [J|[J|J]]; [discriminate|subst c; destruct I as [I|[I|[]]]; discriminate|exact (IH J)]. - destruct J as [->|J]; [apply N; now left|exact (IH J)]. Qed.
(** a destination ends before the empty line, whatever follows that *)
Lemma dest_before : forall p y d m1, destination_at (p ++ 10%N :: 10%N :: y) d m1 -> ~ In (ch "\") p -> ~ In (ch "(") p ->
  exists q p2, p = q ++ p2 /\ m1 = p2 ++ 10%N :: 10%N :: y /\ forall y2, destination_at (q ++ p2 ++ 10%N :: 10%N :: y2) d (p2 ++ 10%N :: 10%N :: y2).
Proof.
  intros p y d m1 H Nb Np. remember (p ++ 10%N :: 10%N :: y) as m eqn:Em. destruct H as [raw d r A|d r N B S|d B].
  - change (lit "<" ++ raw ++ lit ">" ++ r) with ((ch "<" :: raw) ++ ch ">" :: r) in Em. apply dense_inside in Em; [|apply cons_dense; [discriminate|apply free_dense; exact (angle_free _ _ A)]|discriminate].
    destruct Em as (p2 & -> & ->). exists ((ch "<" :: raw) ++ [ch ">"]), p2. split; [now rewrite <- app_assoc|]. split; [reflexivity|]. intros y2. rewrite <- app_assoc. exact (dest_angle raw d (p2 ++ 10%N :: 10%N :: y2) A).
  - apply dense_prefix in Em; [|now apply bare_dense]. destruct Em as [(p2 & -> & ->)|E].
    + exists d, p2. split; [reflexivity|]. split; [reflexivity|]. intros y2. constructor; [exact N|exact B|]. destruct p2 as [|c p2]; cbn [app bare_stops] in *.
      * split; [reflexivity|]. split; [discriminate|]. intros (a & t & E & _). discriminate.
      * destruct S as (S1 & S2 & _). split; [exact S1|]. split; [exact S2|]. intros (a & t & E & _). injection E as -> _. apply Np. apply in_or_app. right. now left.
    + exfalso. destruct (bare_end d B p E) as (u & ->). apply Nb. apply in_or_app. right. now left.
  - exfalso. apply dense_prefix in Em; [|now apply bare_dense]. destruct Em as [(p2 & -> & E)|E].
    + destruct p2 as [|c [|e p2]]; discriminate.
    + destruct (bare_end d B p E) as (u & ->). apply Nb. apply in_or_app. right. now left.
Qed.
Lemma title_before : forall p y, (forall c, In c (34%N :: lit "'(\") -> ~ In c p) -> ~ applies definition_title (p ++ 10%N :: 10%N :: y).
Proof.
  intros p y N (x & r & w & m & E & _ & G & o & c & raw & I & _ & ->). assert (O : In o (34%N :: lit "'(\")) by (destruct I as [I|[I|[I|[]]]]; injection I as <- _; cbn; tauto).
  symmetry in E. apply dense_inside in E; [|now apply gap_dense|intros ->; destruct O as [O|[O|[O|[O|[]]]]]; discriminate]. destruct E as (p2 & -> & _). apply (N o O). apply in_or_app. right. now left.
Qed.
(** the part of a definition behind its label *)
Inductive rest_def : str -> str -> option str -> str -> Prop :=
| rest_def_of : forall w m d m1 t m2 r, one_gap w -> destination_at m d m1 ->
    ((exists x, t = Some x /\ definition_title m1 x m2) \/ (t = None /\ m2 = m1 /\ ~ applies definition_title m1)) -> line_end m2 r ->
    rest_def (ch ":" :: w ++ m) d t r.
Lemma rest_before : forall p y d t r, rest_def (p ++ 10%N :: 10%N :: y) d t r -> (forall c, In c (34%N :: lit "'(\") -> ~ In c p) ->
  exists q p2, p = q ++ p2 /\ line_end (p2 ++ 10%N :: 10%N :: y) r /\ forall y2 r2, line_end (p2 ++ 10%N :: 10%N :: y2) r2 -> rest_def (p ++ 10%N :: 10%N :: y2) d t r2.
Proof.
  intros p y d t r H N. remember (p ++ 10%N :: 10%N :: y) as z eqn:Ez. destruct H as [w m d m1 t m2 r G Ds T E].
  destruct (dest_head _ _ _ Ds) as (c & m' & -> & Nc). change (ch ":" :: w ++ c :: m') with ((ch ":" :: w) ++ c :: m') in Ez. apply dense_inside in Ez; [|apply cons_dense; [discriminate|now apply gap_dense]|exact Nc].
  destruct Ez as (p1 & -> & ->). assert (Nw : forall x, In x (34%N :: lit "'(\") -> ~ In x (c :: p1)) by (intros x I J; apply (N x I); apply in_or_app; now right).
  change (c :: p1 ++ 10%N :: 10%N :: y) with ((c :: p1) ++ 10%N :: 10%N :: y) in Ds. apply dest_before in Ds; [|apply Nw; cbn; tauto|apply Nw; cbn; tauto]. destruct Ds as (q & p2 & Ep & -> & D2).
  assert (N2 : forall x, In x (34%N :: lit "'(\") -> ~ In x p2) by (intros x I J; apply (Nw x I); rewrite Ep; apply in_or_app; now right).
  destruct T as [(x & _ & T)|(-> & -> & _)]; [exfalso; apply (title_before p2 y N2); now exists x, m2|].
  exists ((ch ":" :: w) ++ q), p2. split; [rewrite <- app_assoc; f_equal; exact Ep|]. split; [exact E|]. intros y2 r2 E2.
  assert (Eq : ((ch ":" :: w) ++ c :: p1) ++ 10%N :: 10%N :: y2 = ch ":" :: w ++ (q ++ p2 ++ 10%N :: 10%N :: y2)).
  { rewrite <- app_assoc. cbn [app]. do 2 f_equal. change (c :: p1 ++ 10%N :: 10%N :: y2) with ((c :: p1) ++ 10%N :: 10%N :: y2). etransitivity; [exact (f_equal (fun l => l ++ 10%N :: 10%N :: y2) Ep)|]. now rewrite <- app_assoc. }
  enough (G2 : rest_def (ch ":" :: w ++ (q ++ p2 ++ 10%N :: 10%N :: y2)) d None r2) by (unfold char, str in *; refine (eq_ind_r (fun z : list BinNums.N => rest_def z d None r2) G2 Eq)).
  apply (rest_def_of w _ d _ None (p2 ++ 10%N :: 10%N :: y2) r2 G (D2 y2)); [right; split; [reflexivity|]; split; [reflexivity|now apply title_before]|exact E2].
Qed.
(** the empty line both sources have *)
Lemma both_empty : forall z z', ext z z' -> untitled z -> exists p y y', z = p ++ 10%N :: 10%N :: y /\ z' = p ++ 10%N :: 10%N :: y' /\ (forall c, In c (34%N :: lit "'(\") -> ~ In c p) /\
  forall p2 q, p = q ++ p2 -> ext (p2 ++ 10%N :: 10%N :: y) (p2 ++ 10%N :: 10%N :: y').
Proof.
  intros z z' (u & -> & ->) (p & q & E & Q & N).
  assert (X : exists p l, u = p ++ l /\ (l = [] \/ l = [10%N] \/ exists x, l = 10%N :: 10%N :: x) /\ forall c, In c (34%N :: lit "'(\") -> ~ In c p).
  { destruct Q as [-> | (y & ->)].
    - rewrite app_nil_r in E. exists u, []. rewrite app_nil_r. split; [reflexivity|]. split; [now left|]. intros c I J. apply (N c I). rewrite <- E. apply in_or_app. now left.
    - apply app_eq_app in E. destruct E as (l & [[-> Y]|[-> Y]]).
      + exists p, l. split; [reflexivity|]. split; [|exact N]. destruct l as [|c [|d l]]; [now left|injection Y as <- _; right; now left|]. right. right. injection Y as <- <- _. now exists l.
      + exists u, []. rewrite app_nil_r. split; [reflexivity|]. split; [now left|]. intros c I J. apply (N c I). apply in_or_app. now left. }
  clear p q E Q N. destruct X as (p & l & -> & K & N).
  assert (Y : exists y y', l ++ [10%N; 10%N] = 10%N :: 10%N :: y /\ l ++ 10%N :: 10%N :: b = 10%N :: 10%N :: y').
  { destruct K as [-> | [-> | (x & ->)]]; cbn [app]; eauto. }
  destruct Y as (y & y' & Y & Y'). exists p, y, y'. rewrite <- !app_assoc, <- Y, <- Y'. split; [reflexivity|]. split; [reflexivity|]. split; [exact N|].
  intros p2 q ->. exists (p2 ++ l). rewrite <- !app_assoc. auto.
Qed.
(** a label with "^" and text behind it is a footnote *)
Lemma text_exists : forall c y, ~ In c [32%N; 10%N; 13%N] -> exists v r, text_line (c :: y) v r.
Proof.
  intros c y N. assert (X : exists u m, c :: y = c :: u ++ m /\ ~ In 10%N u /\ (m = [] \/ begins_with 10%N m)).
  { clear N. revert c. induction y as [|d y IH]; intros c; [exists [], []; split; [reflexivity|]; split; [intros []|now left]|].
    destruct (N.eq_dec d 10) as [->|Nd]; [exists [], (10%N :: y); split; [reflexivity|]; split; [intros []|right; now eexists]|].
    destruct (IH d) as (u & m & E & I & M). injection E as E. exists (d :: u), m. cbn [app]. split; [now rewrite E|]. split; [intros [J|J]; [congruence|exact (I J)]|exact M]. }
  destruct X as (u & m & -> & I & M). assert (Nc : ~ In 10%N (c :: u)) by (intros [J|J]; [apply N; cbn; auto|exact (I J)]).
  destruct M as [-> | (m' & ->)]; [exists (c :: u), [], []; repeat match goal with |- _ /\ _ => apply conj end|].
  - reflexivity. - discriminate. - exact Nc. - constructor. - intros [(x & X) _]. discriminate.
  - destruct u as [|d u0] using rev_ind; [|clear IHu0; destruct (N.eq_dec d 13) as [->|Nd]].
    + exists [c], m', (10%N :: m'). repeat match goal with |- _ /\ _ => apply conj end; [reflexivity|discriminate|exact Nc|apply (end_eol [10%N]); now left|].
      intros [_ (u & E)]. destruct u as [|e [|f u]]; [|discriminate|discriminate]. injection E as ->. apply N. cbn. auto.
    + exists (c :: u0), m', (13%N :: 10%N :: m'). repeat match goal with |- _ /\ _ => apply conj end; [cbn [app]; now rewrite <- app_assoc|discriminate| |apply (end_eol [13%N; 10%N]); now right|].
      * intros [J|J]; [apply Nc; now left|]. apply Nc. right. apply in_or_app. now left.
      * intros [(x & X) _]. discriminate.
    + exists (c :: u0 ++ [d]), m', (10%N :: m'). repeat match goal with |- _ /\ _ => apply conj end; [reflexivity|discriminate|exact Nc|apply (end_eol [10%N]); now left|].
      intros [_ (u & E)]. change (c :: u0 ++ [d]) with ((c :: u0) ++ [d]) in E. apply app_inj_tail in E. destruct E as [_ E]. exact (Nd E).
Qed.
Lemma footnote_applies : forall k w z, k <= 3 -> footnote_text w z -> ~ In (ch "]") w -> ~ ~ applies r_footnote_def (rep k c_sp ++ ch "[" :: w ++ ch "]" :: z).
Proof.
  intros k w z L (l & j & c & y & -> & Nl & -> & Nc) I Q.
  assert (S : exists m, strip 3 (repeat 32%N j ++ c :: y) m /\ exists v r, text_line m v r).
  { destruct (le_lt_dec j 3) as [Lj|Lj].
    - exists (c :: y). split; [|now apply text_exists]. exists j. split; [reflexivity|]. split; [exact Lj|]. intros _ (t & E). injection E as -> _. apply Nc. now left.
    - exists (repeat 32%N (j - 3) ++ c :: y). split.
      + exists 3. split; [|split; [lia|intros K; exfalso; lia]]. rewrite app_assoc. f_equal. change (rep 3 c_sp) with (repeat 32%N 3). rewrite <- repeat_app. f_equal. lia.
      + assert (X : forall n, exists v r, text_line (repeat 32%N n ++ c :: y) v r).
        { induction n as [|n (v & r & m & E & N0 & N1 & Le & N2)]; [now apply text_exists|]. exists (32%N :: v), r, m. cbn [repeat app]. rewrite E.
          split; [reflexivity|]. split; [discriminate|]. split; [intros [J|J]; [discriminate|exact (N1 J)]|]. split; [exact Le|]. intros [B (u & Eu)]. apply N2. split; [exact B|].
          destruct u as [|e u]; [injection Eu as Eu; discriminate|]. injection Eu as _ ->. now exists u. }
        apply X. }
  destruct S as (m & S & v & m2 & T). apply (nn_repeated _ footnote_line) with (s := m2).
  - intros s x r (q & -> & (q2 & -> & N0 & _ & Le & _)). rewrite !app_length. destruct x as [|e x]; [congruence|]. apply end_tail in Le.
    destruct Le as (t & -> & _). cbn [repeat List.length]. rewrite ?app_length. lia.
  - intros (ls & r & R). apply Q. exists (HFootnote l (join [c_nl] (v :: ls))), r.
    apply (R_footnote_def k l (repeat 32%N j ++ c :: y) m v m2 ls r L Nl); [|exact S|exact T|exact R]. intro J. apply I. now right.
Qed.
Lemma footnote_text_ext : forall z z' w, ext z z' -> footnote_text w z -> footnote_text w z'.
Proof.
  intros z z' w F (l & j & c & y & -> & Nl & -> & Nc). exists l, j, c. destruct (ext_off1 (ch ":") _ _ ltac:(discriminate) F) as (a & -> & Fa). off Fa (sp_free j) q Fq.
  assert (N : c <> 10%N) by (intros ->; apply Nc; cbn; auto). destruct (ext_off1 c _ _ N Fq) as (y' & -> & _). exists y'. auto.
Qed.
Lemma definition_pair : forall fn s s', ext s s' -> labels_closed fn s ->
  (forall x r, r_definition s x r -> (fn -> ~ applies r_footnote_def s) -> exists r', r_definition s' x r' /\ ex r r') /\ (forall x r', r_definition s' x r' -> (fn -> ~ applies r_footnote_def s') -> exists r, r_definition s x r /\ ex r r').
Proof.
  intros fn s s' F C.
  assert (Of : forall k raw label z d t r, k <= 3 -> label_text raw label -> label_fits label -> rest_def z d t r -> r_definition (rep k c_sp ++ ch "[" :: raw ++ ch "]" :: z) (HDefinition label d t) r).
  { intros k raw label z d t r L Lt Lf H. destruct H as [w m d m1 t m2 r G Ds T E]. apply (R_definition k _ label w m d m1 t m2 r L); try assumption. now exists raw. }
  split; intros x r H Nf; inversion H as [k y label w m d m1 t m2 r0 L Bk G Ds T E Es Ex Er]; clear H; destruct Bk as (raw & -> & Lt & Lf); subst x r0;
    pose proof (rest_def_of w m d m1 t m2 r G Ds T E) as R; clear G Ds T E.
  - destruct (labels_ext _ _ _ F C k (raw ++ ch "]" :: ch ":" :: w ++ m)) as (w1 & z & z' & E & E' & Fz & I1 & I2 & N); [left; now rewrite <- Es|]. rewrite <- Es in E. apply app_inv_head in E. injection E as E.
    pose proof (label_first _ _ _ _ _ Lt E I1 I2) as <-. apply app_inv_head in E. injection E as <-. rewrite E'.
    destruct N as [N|[Hf N]]; [now eexists| |exfalso; exact (footnote_applies k raw _ L N I1 (fun Q => Nf Hf (eq_ind_r (fun v => applies r_footnote_def v) Q (eq_sym Es))))].
    destruct (both_empty _ _ Fz N) as (p & y & y' & Ep & -> & Nc & X). rewrite Ep in R. apply rest_before in R; [|exact Nc]. destruct R as (q & p2 & -> & Le & R).
    destruct (proj1 (end_ext _ _ (X p2 q eq_refl)) _ Le) as (r' & Le' & Fr). exists r'. split; [|exact Fr]. apply Of; try assumption. exact (R _ _ Le').
  - destruct (labels_ext _ _ _ F C k (raw ++ ch "]" :: ch ":" :: w ++ m)) as (w1 & z & z' & E & E' & Fz & I1 & I2 & N); [right; now rewrite <- Es|]. rewrite <- Es in E'. apply app_inv_head in E'. injection E' as E'.
    pose proof (label_first _ _ _ _ _ Lt E' I1 I2) as <-. apply app_inv_head in E'. injection E' as <-. rewrite E.
    destruct N as [N|[Hf N]]; [destruct (ext_back1 (ch ":") _ _ ltac:(discriminate) Fz) as (m0 & -> & _); now eexists| |].
    2: { exfalso. apply (footnote_applies k raw (ch ":" :: w ++ m) L (footnote_text_ext _ _ _ Fz N) I1). intros Q. apply (Nf Hf). rewrite <- Es. exact Q. }
    destruct (both_empty _ _ Fz N) as (p & y & y' & -> & Ep & Nc & X).
    rewrite Ep in R. apply rest_before in R; [|exact Nc]. destruct R as (q & p2 & -> & Le & R).
    destruct (proj2 (end_ext _ _ (X p2 q eq_refl)) _ Le) as (r' & Le' & Fr). exists r'. split; [|exact Fr]. apply Of; try assumption. exact (R _ _ Le').
Qed.
Section Rules.
  Variable cfg : config.
  Hypothesis Hcustom : custom_block cfg = None.
  Hypothesis Hb : b_list cfg <> Ignore -> ~ indented b.
  Definition calm (s : str) : Prop := (b_html_block cfg <> Ignore -> no_html s) /\
    (b_link_definition cfg <> Ignore \/ b_footnote_definition cfg <> Ignore -> labels_closed (b_footnote_definition cfg <> Ignore) s).
  Lemma calm_tail : forall s r, calm s -> tail s r -> calm r.
  Proof. intros s r [C1 C2] T. split; intros O; [exact (no_html_tail _ _ (C1 O) T)|exact (labels_tail _ _ _ (C2 O) T)]. Qed.
  Definition good (r r' : str) : Prop := ex r r' /\ calm r.
  Definition at_ {A} (s s' : str) (R : rule A) : Prop := (forall x r, R s x r -> exists r', R s' x r' /\ good r r') /\ (applies R s' -> applies R s).
  Lemma ins_at : forall A (R : rule A) s s', ins ex R -> lined R -> ext s s' -> calm s -> at_ s s' R.
  Proof.
    intros A R s s' H L F C. split; [|now apply (applies_aft _ ex _ s s' (proj2 H))]. intros x r E. fwd H F E r' E' Fr. exists r'. split; [exact E'|]. split; [exact Fr|]. exact (calm_tail _ _ C (L _ _ _ E)).
  Qed.
  Lemma at_iff : forall A (R : rule A) s s', at_ s s' R -> (applies R s <-> applies R s').
  Proof. intros A R s s' [H1 H2]. split; [|exact H2]. intros (x & r & E). destruct (H1 _ _ E) as (r' & E' & _). now exists x, r'. Qed.
  Lemma on_at : forall A B (e : behavior B) (R : rule A) s s', (e <> Ignore -> at_ s s' R) -> at_ s s' (on e R).
  Proof.
    intros A B e R s s' H. split.
    - intros x r [N E]. destruct (proj1 (H N) x r E) as (r' & E' & G). exists r'. split; [now split|exact G].
    - intros (x & r & N & E). destruct (proj2 (H N)) as (x' & r' & E'); [now exists x, r|]. exists x', r'. now split.
  Qed.
  Lemma custom_at : forall s s', at_ s s' (r_custom_block cfg).
  Proof. intros s s'. split; [intros x r H|intros (x & r & H)]; inversion H; congruence. Qed.
  Lemma first_at : forall A (l : list (rule A)) s s', Forall (at_ s s') l -> forall x r, first_of l s x r -> exists r', first_of l s' x r' /\ good r r'.
  Proof.
    intros A l s s' H. induction H as [|R l [H1 H2] _ IH]; intros x r; cbn [first_of]; [intros []|]. intros [E|[N E]].
    - destruct (H1 _ _ E) as (r' & E' & G). exists r'. auto.
    - destruct (IH _ _ E) as (r' & E' & G). exists r'. split; [|exact G]. right. split; [tauto|exact E'].
  Qed.
  Lemma none_at : forall A (R : rule A) s s', ~ applies R s -> ~ applies R s' -> at_ s s' R.
  Proof. intros A R s s' N N'. split; [intros x r E; elim N; now exists x, r|intros E; elim (N' E)]. Qed.
  Lemma pair_at : forall A (R : rule A) s s', (forall x r, R s x r -> exists r', R s' x r' /\ ex r r') -> (forall x r', R s' x r' -> exists r, R s x r /\ ex r r') ->
    lined R -> calm s -> at_ s s' R.
  Proof.
    intros A R s s' H1 H2 L C. split.
    - intros x r E. destruct (H1 _ _ E) as (r' & E' & Fr). exists r'. split; [exact E'|]. split; [exact Fr|]. exact (calm_tail _ _ C (L _ _ _ E)).
    - intros (x & r & E). destruct (H2 _ _ E) as (r' & E' & _). now exists x, r'.
  Qed.
  Lemma html_at_ : forall s s', ext s s' -> calm s -> b_html_block cfg <> Ignore -> at_ s s' r_html.
  Proof.
    intros s s' F [C _] O. apply none_at; intros (x & r & H).
    - exact (no_html_not _ _ _ (C O) H).
    - inversion H as [k m v r0 L E]; subst. destruct (html_tag _ _ _ E) as (c & t & -> & T). back F (sp_free k) m Fm. destruct (ext_back [ch "<"; c] t _ Fm) as (m2 & -> & _).
      + intros [J|[->|[]]]; [discriminate|]. destruct T as [T|[T|[T|[T|[]]]]]; discriminate.
      + apply (C O [] k c m2); [reflexivity|now left|exact T].
  Qed.
  Lemma footnote_at : forall s s', ext s s' -> calm s -> b_footnote_definition cfg <> Ignore -> at_ s s' r_footnote_def.
  Proof.
    intros s s' F Cs O. pose proof (proj2 Cs) as C. apply pair_at; [exact (proj1 (footnote_pair _ _ _ F (C (or_intror O))))|exact (proj2 (footnote_pair _ _ _ F (C (or_intror O))))|exact footnote_lined|exact Cs].
  Qed.
  (** a definition where there is no footnote *)
  Definition r_plain_definition : rule shape := fun s x r => on (b_link_definition cfg) r_definition s x r /\ ~ applies (on (b_footnote_definition cfg) r_footnote_def) s.
  Lemma definition_at : forall s s', ext s s' -> calm s -> at_ s s' r_plain_definition.
  Proof.
    intros s s' F Cs. assert (Nf : forall y, ~ applies (on (b_footnote_definition cfg) r_footnote_def) y -> b_footnote_definition cfg <> Ignore -> ~ applies r_footnote_def y).
    { intros y N O (x & r & E). apply N. exists x, r. now split. }
    assert (If : applies (on (b_footnote_definition cfg) r_footnote_def) s <-> applies (on (b_footnote_definition cfg) r_footnote_def) s').
    { apply at_iff, on_at. intros O. now apply footnote_at. }
    split.
    - intros x r [[O E] N]. destruct (proj1 (definition_pair _ _ _ F (proj2 Cs (or_introl O))) _ _ E (Nf _ N)) as (r' & E' & Fr). exists r'.
      split; [split; [now split|tauto]|]. split; [exact Fr|]. exact (calm_tail _ _ Cs (definition_lined _ _ _ E)).
    - intros (x & r & [O E] & N). destruct (proj2 (definition_pair _ _ _ F (proj2 Cs (or_introl O))) _ _ E (Nf _ N)) as (r' & E' & _). exists x, r'. split; [now split|tauto].
  Qed.
  Lemma blank_at : forall s s', ext s s' -> calm s -> at_ s s' blank_line.
  Proof. intros s s' F C. apply ins_at; try assumption; [apply blank_line_ext|apply strict_lined, blank_strict]. Qed.

  (** *** Paragraphs *)
  Definition starters (s : str) : list Prop :=
    [ applies (on (b_heading_v1 cfg) (atx cfg)) s; applies (on (b_heading_v2 cfg) underline) s; applies (on (b_thematic_break cfg) r_break_line) s;
      applies (on (b_blockquote cfg) r_quote) s; applies (on (b_list cfg) item_at) s; applies (on (b_code_block cfg) r_fenced) s;
      applies (on (b_html_block cfg) r_html) s; applies (on (b_link_definition cfg) r_definition) s \/ applies (on (b_footnote_definition cfg) r_footnote_def) s;
      applies (on (b_table cfg) r_table) s; applies (r_custom_block cfg) s; applies blank_line s ].
  Lemma starters_ : forall s, starter cfg s <-> Exists (fun P : Prop => P) (starters s).
  Proof. intros s. unfold starter, starters. rewrite !Exists_cons, !Exists_nil. rewrite (or_assoc (applies (on (b_link_definition cfg) r_definition) s)). reflexivity. Qed.
  Lemma starter_cases : forall s s', ext s s' -> calm s ->
    (starter cfg s -> ~ ~ starter cfg s') /\ (starter cfg s' -> ~ starter cfg s -> ~ fence_start s -> False).
  Proof.
    intros s s' F C.
    assert (I : Forall2 (fun P Q : Prop => (P -> ~ ~ Q) /\ (Q -> ~ P -> ~ fence_start s -> False)) (starters s) (starters s')).
    { assert (Y : forall P Q : Prop, (P <-> Q) -> (P -> ~ ~ Q) /\ (Q -> ~ P -> ~ fence_start s -> False)) by tauto.
      repeat apply Forall2_cons; try apply Forall2_nil.
      - apply Y, at_iff, on_at; intros _. apply ins_at; try assumption; [apply atx_ext|apply atx_lined].
      - apply Y, at_iff, on_at; intros _. apply ins_at; try assumption; [apply underline_ext|apply underline_lined].
      - apply Y, at_iff, on_at; intros _. apply ins_at; try assumption; [apply break_ext|apply break_lined].
      - apply Y, at_iff, on_at; intros _. apply ins_at; try assumption; [apply quote_ext|apply quote_lined].
      - apply Y, at_iff, on_at; intros On. apply ins_at; try assumption; [now apply item_ext, Hb|apply item_lined].
      - split; intros (x & r & On & E).
        + destruct (fenced_fore _ _ F _ _ E) as (r' & E' & _). intros K. apply K. exists x, r'. now split.
        + intros _ K. apply K. apply (start_ext _ _ F). apply fenced_start. now exists x, r.
      - apply Y, at_iff, on_at; intros On. now apply html_at_.
      - assert (If : applies (on (b_footnote_definition cfg) r_footnote_def) s <-> applies (on (b_footnote_definition cfg) r_footnote_def) s').
        { apply at_iff, on_at. intros O. now apply footnote_at. }
        pose proof (at_iff _ _ _ _ (definition_at _ _ F C)) as Id.
        assert (G : forall y, applies (on (b_link_definition cfg) r_definition) y -> ~ applies (on (b_footnote_definition cfg) r_footnote_def) y -> applies r_plain_definition y).
        { intros y (x & r & E) N. exists x, r. now split. }
        assert (G2 : forall y, applies r_plain_definition y -> applies (on (b_link_definition cfg) r_definition) y) by (intros y (x & r & E & _); now exists x, r).
        split; [intros H K; assert (N : ~ applies (on (b_footnote_definition cfg) r_footnote_def) s) by tauto|intros H K _; assert (N : ~ applies (on (b_footnote_definition cfg) r_footnote_def) s') by tauto].
        + apply K. left. apply G2, Id, G; tauto.
        + apply K. left. apply G2, Id, G; tauto.
      - apply Y, at_iff, on_at; intros _. apply ins_at; try assumption; [apply table_ext|apply table_lined].
      - apply Y, at_iff, custom_at.
      - apply Y, at_iff. now apply blank_at. }
    rewrite (starters_ s), (starters_ s').
    induction I as [|P Q l l' [I1 I2] _ [IH1 IH2]]; [split; intro H; inversion H|]. rewrite !Exists_cons. tauto.
  Qed.
  Lemma starter_lf : forall s, starter cfg (10%N :: s).
  Proof.
    intros s. assert (B : applies blank_line (10%N :: s)). { exists [10%N], s. split; [reflexivity|]. exists [], (10%N :: s). split; [reflexivity|]. split; [apply Forall_nil|apply lf_end]. }
    unfold starter. do 11 apply Exists_cons_tl. now apply Exists_cons_hd.
  Qed.
  Lemma para_dead : dead (paragraph_line cfg).
  Proof. apply dead_lf. intros s (t & ->) (v & r & N & _). apply N, starter_lf. Qed.
  Lemma para_strict : strict (paragraph_line cfg).
  Proof. intros s v r (_ & m & M & T). apply (strip_strict _ _ _ _ M). exact (text_strict _ _ _ T). Qed.
  Lemma para_fore : forall s s' v r, ext s s' -> calm s -> ~ fence_start s -> paragraph_line cfg s v r -> exists r', paragraph_line cfg s' v r' /\ good r r'.
  Proof.
    intros s s' v r F C D P. pose proof P as (N & m & M & T). endf (strip_ext 3) F M m' M' Fm. fwd text_ext Fm T r' T' Fr. exists r'. split.
    - split; [|eauto]. intro St. exact (proj2 (starter_cases _ _ F C) St N D).
    - split; [exact Fr|]. apply (calm_tail s); [exact C|]. right. exact (para_strict _ _ _ P).
  Qed.
  Lemma para_aft : forall s s', ext s s' -> calm s -> applies (paragraph_line cfg) s' -> applies (paragraph_line cfg) s.
  Proof.
    intros s s' F C (v & r & N & m & M & T). endb (strip_ext 3) F M m' M' Fm. bwd text_ext Fm T r' T' Fr. exists v, r'. split; [|eauto]. intro St. exact (proj1 (starter_cases _ _ F C) St N).
  Qed.
  Lemma fence_left : forall u v, fence_line u -> fence_line (u ++ v).
  Proof. intros u v [(a & k & w & -> & U)|(a & k & w & -> & U)]; [left|right]; exists a, k, (w ++ v); (split; [now rewrite <- !app_assoc|exact U]). Qed.
  Lemma fence_right : forall u v, ends_in 10%N u -> fence_line v -> fence_line (u ++ v).
  Proof. intros u v U. apply fence_tail. right. exists u. auto. Qed.
  Lemma ex_ne : forall s s', ex s s' -> s <> [].
  Proof. intros s s' [F|[-> _]]; [exact (proj1 (ext_ne _ _ F))|discriminate]. Qed.
  Lemma tail_split : forall s r, tail s r -> exists t, s = t ++ r.
  Proof. intros s r [->|(t & -> & _)]; [now exists []|now exists t]. Qed.
  Lemma paras_fore : forall s ls r, repeated (paragraph_line cfg) s ls r -> forall s' c, ex s s' -> calm s -> s = c ++ r -> ~ fence_line c ->
    exists r', repeated (paragraph_line cfg) s' ls r' /\ good r r'.
  Proof.
    intros s ls r R. induction R as [s N|s v m l r E R IH]; intros s' c F C Ec D.
    - exists s'. split; [|now split]. constructor. destruct F as [F|[-> ->]]; [|apply para_dead]. intro A. apply N. exact (para_aft _ _ F C A).
    - destruct F as [F|[-> ->]]; [|elim (proj1 para_dead); now exists v, m].
      destruct (para_strict _ _ _ E) as (u & Eu & U). destruct (tail_split _ _ (repeated_lined _ _ (strict_lined _ _ para_strict) _ _ _ R)) as (c2 & Em).
      assert (Nm : m <> []). { destruct E as (_ & m0 & M & T). endf (strip_ext 3) F M m' M' Fm. fwd text_ext Fm T r' T' Fr. exact (ex_ne _ _ Fr). }
      assert (Ul : ends_in 10%N u) by tauto.
      assert (Ecc : c = u ++ c2). { apply (app_inv_tail r). rewrite <- app_assoc, <- Em, <- Eu. now symmetry. }
      destruct (para_fore s s' v m F C) as (m' & E' & G); [|exact E|].
      { intro Fs. apply D. rewrite Ecc. apply fence_left. apply (start_line u m); [now rewrite <- Eu|exact Ul]. }
      destruct G as [Fm Cm]. destruct (IH m' c2 Fm Cm Em) as (r' & R' & G'); [intro X; apply D; rewrite Ecc; now apply fence_right|].
      exists r'. split; [|exact G']. now apply (rep_more _ s' v m').
  Qed.

  (** *** Lines of text *)
  Lemma underline_at : forall r r', ex r r' -> (applies underline r <-> applies underline r').
  Proof. intros r r' [F|[-> ->]]; [exact (applies_ext _ _ _ _ _ underline_ext F)|]. destruct underline_dead. tauto. Qed.
  Lemma lines_fore : forall s s' h r c, ext s s' -> calm s -> r_lines cfg s h r -> s = c ++ r -> ~ fence_line c -> exists r', r_lines cfg s' h r' /\ good r r'.
  Proof.
    intros s s' h r c F C H Ec D. inversion H as [s0 ls m l r0 N R U|s0 ls r0 N R U]; subst h r0 s0.
    - destruct (tail_split _ _ (underline_lined _ _ _ U)) as (c2 & Em). destruct (tail_split _ _ (repeated_lined _ _ (strict_lined _ _ para_strict) _ _ _ R)) as (c1 & E1).
      assert (Ecc : c = c1 ++ c2). { apply (app_inv_tail r). rewrite <- app_assoc, <- Em, <- E1. now symmetry. }
      destruct (paras_fore _ _ _ R s' c1 (or_introl F) C E1) as (m' & R' & Fm & Cm); [intro X; apply D; rewrite Ecc; now apply fence_left|].
      destruct Fm as [Fm|[-> ->]]; [|elim (proj1 underline_dead); now exists l, r]. fwd underline_ext Fm U r' U' Fr. exists r'. split; [now apply (R_setext cfg s' ls m')|].
      split; [exact Fr|]. exact (calm_tail _ _ Cm (underline_lined _ _ _ U)).
    - destruct (paras_fore _ _ _ R s' c (or_introl F) C Ec D) as (r' & R' & G). exists r'. split; [|exact G]. constructor; try assumption. now rewrite <- (underline_at _ _ (proj1 G)).
  Qed.
  Lemma lines_aft : forall s s', ext s s' -> calm s -> applies (r_lines cfg) s' -> ~ ~ applies (r_lines cfg) s.
  Proof.
    intros s s' F C (h & r & H) K. assert (P : applies (paragraph_line cfg) s').
    { inversion H as [s0 ls m l r0 N R U|s0 ls r0 N R U]; clear H; subst; (destruct R as [s1 J|s1 a m1 l1 r1 E R1]; [now elim N|now exists a, m1]). }
    apply (para_aft _ _ F C) in P. apply (nn_repeated _ (paragraph_line cfg)) with (s := s).
    { intros y v q E. destruct E as (N & m & (j & -> & _) & (m2 & -> & N0 & _ & E & _)). unfold char, str in *. rewrite !app_length.
      assert (len q <= len m2). { inversion E; subst; rewrite ?app_length; cbn; lia. } destruct v; [now elim N0|]. cbn [List.length]. unfold char, str in *. lia. }
    intros (ls & q & R). assert (Nl : ls <> []). { intros ->. inversion R; subst. contradiction. }
    assert (X : ~ applies underline q). { intros (l & q2 & U). apply K. exists (HHeading (Setext l) (join [c_nl] ls)), q2. now apply (R_setext cfg s ls q). }
    apply K. exists (HText (join [c_nl] ls)), q. now constructor.
  Qed.

  (** *** Blocks *)
  Definition plain_start {A} (R : rule A) : Prop := forall y x r, R y x r -> exists k c t, y = rep k c_sp ++ c :: t /\ ~ In c (lit " `~").
  Lemma plain_no_fence : forall A (R : rule A) s, plain_start R -> applies R s -> ~ fence_start s.
  Proof.
    intros A R s H (x & r & E) (k' & f & t' & E' & _ & I). destruct (H _ _ _ E) as (k & c & t & E2 & N). rewrite E2 in E'. clear E2 E.
    revert k' E'. induction k as [|k IH]; intros [|k'] E'; cbn [rep repeat app] in E'.
    - injection E' as -> _. apply N. now right.
    - injection E' as -> _. apply N. now left.
    - injection E' as <- _. destruct I as [I|[I|[]]]; discriminate.
    - injection E' as E'. exact (IH k' E').
  Qed.
  Lemma ps_on : forall A B (e : behavior B) (R : rule A), plain_start R -> plain_start (on e R).
  Proof. intros A B e R H y x r [_ E]. exact (H _ _ _ E). Qed.
  Lemma ps_atx : plain_start (atx cfg).
  Proof.
    intros y x r H. inversion H as [n w m v r0 L]; subst. destruct n as [|n]; [lia|]. exists 0, (ch "#"), (rep n (ch "#") ++ w ++ m). split; [reflexivity|].
    intros [J|[J|[J|[]]]]; discriminate.
  Qed.
  Lemma ps_break : plain_start r_break_line.
  Proof.
    intros y x r H. inversion H as [k c n w m r0 L Ln I]; subst. destruct n as [|n]; [lia|]. exists k, c, (rep n c ++ w ++ m). split; [reflexivity|].
    destruct I as [<-|[<-|[<-|[]]]]; intros [J|[J|[J|[]]]]; discriminate.
  Qed.
  Lemma ps_quotes : forall y l ls r, repeated quote_line y (l :: ls) r -> exists k c t, y = rep k c_sp ++ c :: t /\ ~ In c (lit " `~").
  Proof. intros y l ls r H. inversion H as [|s0 a m l0 r0 E R]; subst. destruct E as (k & m2 & -> & _). exists k, (ch ">"), m2. split; [reflexivity|]. intros [J|[J|[J|[]]]]; discriminate. Qed.
  Lemma ps_quote : plain_start r_quote.
  Proof. intros y x r H. inversion H as [s0 ls r0 N R]; subst. destruct ls; [now elim N|]. exact (ps_quotes _ _ _ _ R). Qed.
  Lemma ps_alert : forall u, plain_start (r_alert u).
  Proof. intros u y x r H. inversion H; subst. eapply ps_quotes; eassumption. Qed.
  Lemma digit_plain : forall c v, digit 10 c v -> ~ In c (lit " `~").
  Proof.
    intros c v (_ & D). assert (J : In c (lit "0123456789abcdef") \/ In c (lit "0123456789ABCDEF")) by (destruct D as [D|D]; apply nth_error_In in D; auto).
    intros [K|[K|[K|[]]]]; subst c; destruct J as [J|J]; cbn in J; repeat (destruct J as [J|J]; [discriminate|]); exact J.
  Qed.
  Lemma numeral_plain : forall ds n, numeral 10 ds n -> exists c t, ds = c :: t /\ ~ In c (lit " `~").
  Proof.
    intros ds n H. induction H as [c v D|s n c v _ (d & t & -> & N) D]; [exists c, []; split; [reflexivity|exact (digit_plain _ _ D)]|].
    exists d, (t ++ [c]). split; [reflexivity|exact N].
  Qed.
  Lemma marker_plain : forall y k r, marker_at y k r -> exists c t, y = c :: t /\ ~ In c (lit " `~").
  Proof.
    intros y k r H. inversion H as [ds n c r0 M|c bl r0 I]; subst.
    - destruct (numeral_plain _ _ M) as (d & t & -> & N). exists d, (t ++ c :: r). split; [reflexivity|exact N].
    - exists c, r. split; [reflexivity|]. destruct I as [I|[I|[I|[]]]]; injection I as <- _; intros [J|[J|[J|[]]]]; discriminate.
  Qed.
  Lemma ps_item : plain_start item_at.
  Proof.
    intros y x r H. inversion H as [s0 k n t v m ls r0 St R]; subst. clear H R.
    assert (X : forall k0 s0 kind z, marker_at s0 kind z -> exists k c t, rep k0 c_sp ++ s0 = rep k c_sp ++ c :: t /\ ~ In c (lit " `~")).
    { intros k0 s0 kind z Mk. destruct (marker_plain _ _ _ Mk) as (c & u & -> & N). exists k0, c, u. split; [reflexivity|exact N]. }
    cbn [first_of item_start] in St. destruct St as [St|[_ [St|[_ [St|[_ []]]]]]]; inversion St; subst; eapply X; eassumption.
  Qed.
  Lemma ps_list : plain_start r_list.
  Proof. intros y x r H. inversion H as [s0 k z items r0 R]; subst. inversion R as [|s1 a m l0 r1 E R1]; subst. exact (ps_item _ _ _ E). Qed.
  Lemma ps_html : plain_start r_html.
  Proof.
    intros y x r H. inversion H as [k m v r0 L E]; subst. destruct (until_nil _ _ _ E) as (t & ->). exists k, (ch "<"), t. split; [reflexivity|]. intros [J|[J|[J|[]]]]; discriminate.
  Qed.
  Lemma ps_footnote : plain_start r_footnote_def.
  Proof. intros y x r H. inversion H; subst. eexists _, (ch "["), _. split; [reflexivity|]. intros [J|[J|[J|[]]]]; discriminate. Qed.
  Lemma ps_definition : plain_start r_definition.
  Proof.
    intros y x r H. inversion H as [k z label w m d m1 t m2 r0 L Bk]; subst. destruct Bk as (raw & -> & _). eexists _, (ch "["), _. split; [reflexivity|]. intros [J|[J|[J|[]]]]; discriminate.
  Qed.
  Lemma ps_table : plain_start r_table.
  Proof.
    intros y x r H. inversion H as [s0 header m1 al m2 rows r0 R1]; subst. destruct R1 as (k & m & -> & _). exists k, (ch "|"), m. split; [reflexivity|]. intros [J|[J|[J|[]]]]; discriminate.
  Qed.

  Lemma line_strict_ : strict r_line.
  Proof. intros s h r H. inversion H as [s0 m v r0 M T]; subst. apply (strip_strict _ _ _ _ M). exact (text_strict _ _ _ T). Qed.
  Lemma lines_strict_ : strict (r_lines cfg).
  Proof.
    assert (X : forall s ls r, ls <> [] -> repeated (paragraph_line cfg) s ls r -> exists u, s = u ++ r /\ (r = [] \/ ends_in 10%N u)).
    { intros s ls r N R. destruct R as [s N2|s a m l r E R]; [now elim N|]. apply (strict_trans _ m); [exact (para_strict _ _ _ E)|]. exact (repeated_lined _ _ (strict_lined _ _ para_strict) _ _ _ R). }
    intros s h r H. inversion H as [s0 ls m l r0 N R U|s0 ls r0 N R U]; subst; [|exact (X _ _ _ N R)]. apply (strict_trans _ m); [exact (X _ _ _ N R)|]. exact (underline_lined _ _ _ U).
  Qed.
  Lemma text_contra : forall A (R : rule A) s x r c, strict R -> R s x r -> s = c ++ r -> r <> [] -> ~ fence_line c -> ~ fence_start s.
  Proof.
    intros A R s x r c H E Ec N D Fs. destruct (H _ _ _ E) as (u & Eu & U). assert (u = c) as -> by (apply (app_inv_tail r); congruence).
    apply D. apply (start_line c r); [now rewrite <- Ec|tauto].
  Qed.
  Lemma good_ne : forall r r', good r r' -> r <> []. Proof. intros r r' [F _]. exact (ex_ne _ _ F). Qed.
  Lemma block_fore : forall s s' h r c, ext s s' -> calm s -> first_of (block_rules cfg) s h r -> s = c ++ r -> (text_shape h -> ~ fence_line c) ->
    exists r', first_of (block_rules cfg) s' h r' /\ good r r'.
  Proof.
    intros s s' h r c F C H Ec D.
    assert (Acode : forall x q, on (b_code_block cfg) r_code_block s x q -> exists q', on (b_code_block cfg) r_code_block s' x q' /\ good q q').
    { intros x q [O E]. destruct (code_fore _ _ F _ _ E) as (q' & E' & Fq). exists q'. split; [now split|]. split; [exact Fq|]. exact (calm_tail _ _ C (code_lined _ _ _ E)). }
    assert (Ncode : ~ applies (on (b_code_block cfg) r_code_block) s -> ~ fence_start s -> ~ applies (on (b_code_block cfg) r_code_block) s').
    { intros N Nf (x & q & O & E). destruct (code_aft _ _ F) as [(x2 & q2 & E2)|Fs]; [now exists x, q| |contradiction]. apply N. exists x2, q2. now split. }
    assert (Aatx : at_ s s' (on (b_heading_v1 cfg) (atx cfg))) by (apply on_at; intros _; apply ins_at; try assumption; [apply atx_ext|apply atx_lined]).
    assert (Nlines : ~ applies (on (b_heading_v2 cfg) (r_lines cfg)) s -> ~ applies (on (b_heading_v2 cfg) (r_lines cfg)) s').
    { intros N (x & q & O & E). apply (lines_aft s s' F C); [now exists x, q|]. intros (x2 & q2 & E2). apply N. exists x2, q2. now split. }
    pose (rest := [on (b_thematic_break cfg) r_break_line; on (b_github_alert cfg) (r_alert (upper_text cfg)); on (b_blockquote cfg) r_quote; on (b_list cfg) r_list;
      on (b_html_block cfg) r_html; on (b_footnote_definition cfg) r_footnote_def; on (b_link_definition cfg) r_definition; on (b_table cfg) r_table; r_custom_block cfg; on (b_paragraph cfg) r_line]).
    change (block_rules cfg) with (on (b_code_block cfg) r_code_block :: on (b_heading_v1 cfg) (atx cfg) :: on (b_heading_v2 cfg) (r_lines cfg) :: rest) in *.
    pose (rest' := [on (b_thematic_break cfg) r_break_line; on (b_github_alert cfg) (r_alert (upper_text cfg)); on (b_blockquote cfg) r_quote; on (b_list cfg) r_list;
      on (b_html_block cfg) r_html; on (b_footnote_definition cfg) r_footnote_def; r_plain_definition; on (b_table cfg) r_table; r_custom_block cfg; on (b_paragraph cfg) r_line]).
    assert (Rr : forall y x q, first_of rest y x q <-> first_of rest' y x q).
    { intros y x q. unfold rest, rest'. cbn [first_of]. assert (G : ~ applies (on (b_footnote_definition cfg) r_footnote_def) y -> (applies r_plain_definition y <-> applies (on (b_link_definition cfg) r_definition) y)).
      { intros N. split; [intros (x2 & q2 & E & _); now exists x2, q2|intros (x2 & q2 & E); exists x2, q2; now split]. }
      assert (K : forall P Q R R' : Prop, (Q -> (R <-> R')) -> (P \/ Q /\ R <-> P \/ Q /\ R')) by (intros P Q R R' K; split; (intros [H1|[H1 H2]]; [now left|right; split; [exact H1|now apply (K H1)]])).
      do 5 (apply K; intros _). apply K. intros N. specialize (G N). split; (intros [E|[E1 E2]]; [left|right]).
      - split; [exact E|exact N]. - split; [intro J; apply E1, G, J|exact E2]. - exact (proj1 E). - split; [intro J; apply E1, G, J|exact E2]. }
    assert (Arest : Forall (at_ s s') rest').
    { unfold rest'. repeat apply Forall_cons; try apply Forall_nil; try apply on_at; intros.
      - apply ins_at; try assumption; [apply break_ext|apply break_lined].
      - apply ins_at; try assumption; [apply alert_ext|apply alert_lined].
      - apply ins_at; try assumption; [apply quote_ext|apply quote_lined].
      - apply ins_at; try assumption; [now apply list_ext, Hb|apply list_lined].
      - now apply html_at_.
      - now apply footnote_at.
      - now apply definition_at.
      - apply ins_at; try assumption; [apply table_ext|apply table_lined].
      - apply custom_at.
      - apply ins_at; try assumption; [apply line_ext|apply strict_lined, line_strict_]. }
    cbn [first_of] in H. destruct H as [H|[Nc [H|[Na [H|[Nl H]]]]]].
    - destruct (Acode _ _ H) as (r' & H' & G). exists r'. split; [now left|exact G].
    - destruct (proj1 Aatx _ _ H) as (r' & H' & G). exists r'. split; [|exact G]. right. split; [|now left]. apply (Ncode Nc). apply (plain_no_fence _ _ _ ps_atx). exists h, r. exact (proj2 H).
    - assert (Dc : ~ fence_line c) by (apply D; destruct H as [_ H]; inversion H; exact I).
      destruct (lines_fore s s' h r c F C (proj2 H) Ec Dc) as (r' & H' & G). exists r'. split; [|exact G]. right. split.
      + apply (Ncode Nc). exact (text_contra _ _ _ _ _ _ lines_strict_ (proj2 H) Ec (good_ne _ _ G) Dc).
      + right. split; [intro X; apply Na; exact (proj2 Aatx X)|]. left. split; [exact (proj1 H)|exact H'].
    - destruct (first_at _ _ _ _ Arest _ _ (proj1 (Rr _ _ _) H)) as (r' & H' & G). apply Rr in H'. exists r'. split; [|exact G]. right. split.
      + apply (Ncode Nc). clear Arest H'. unfold rest in H. cbn [first_of] in H.
        destruct H as [H|[_ [H|[_ [H|[_ [H|[_ [H|[_ [H|[_ [H|[_ [H|[_ [H|[_ [H|[_ []]]]]]]]]]]]]]]]]]]]].
        * apply (plain_no_fence _ _ _ ps_break). exists h, r. exact (proj2 H).
        * apply (plain_no_fence _ _ _ (ps_alert (upper_text cfg))). exists h, r. exact (proj2 H).
        * apply (plain_no_fence _ _ _ ps_quote). exists h, r. exact (proj2 H).
        * apply (plain_no_fence _ _ _ ps_list). exists h, r. exact (proj2 H).
        * apply (plain_no_fence _ _ _ ps_html). exists h, r. exact (proj2 H).
        * apply (plain_no_fence _ _ _ ps_footnote). exists h, r. exact (proj2 H).
        * apply (plain_no_fence _ _ _ ps_definition). exists h, r. exact (proj2 H).
        * apply (plain_no_fence _ _ _ ps_table). exists h, r. exact (proj2 H).
        * inversion H; congruence.
        * assert (Dc : ~ fence_line c) by (apply D; destruct H as [_ H]; inversion H; exact I).
          exact (text_contra _ _ _ _ _ _ line_strict_ (proj2 H) Ec (good_ne _ _ G) Dc).
      + right. split; [intro X; apply Na; exact (proj2 Aatx X)|]. right. split; [exact (Nlines Nl)|exact H'].
  Qed.

  (** *** Documents *)
  Lemma block_lined_ : forall s h r, calm s -> first_of (block_rules cfg) s h r -> tail s r.
  Proof.
    assert (X : forall A B (e : behavior B) (R : rule A), lined R -> forall s h r, on e R s h r -> tail s r) by (intros A B e R L s h r [_ E]; exact (L _ _ _ E)).
    intros s h r C H. unfold block_rules in H. cbn [first_of] in H.
    destruct H as [H|[_ [H|[_ [H|[_ [H|[_ [H|[_ [H|[_ [H|[_ [H|[_ [H|[_ [H|[_ [H|[_ [H|[_ [H|[_ []]]]]]]]]]]]]]]]]]]]]]]]]]].
    - exact (X _ _ _ _ code_lined _ _ _ H). - exact (X _ _ _ _ (atx_lined _) _ _ _ H). - exact (X _ _ _ _ (strict_lined _ _ lines_strict_) _ _ _ H).
    - exact (X _ _ _ _ break_lined _ _ _ H). - exact (X _ _ _ _ (alert_lined _) _ _ _ H). - exact (X _ _ _ _ quote_lined _ _ _ H). - exact (X _ _ _ _ list_lined _ _ _ H).
    - destruct H as [O H]. exfalso. exact (no_html_not _ _ _ (proj1 C O) H). - exact (X _ _ _ _ footnote_lined _ _ _ H). - exact (X _ _ _ _ definition_lined _ _ _ H). - exact (X _ _ _ _ table_lined _ _ _ H).
    - inversion H; congruence. - exact (X _ _ _ _ (strict_lined _ _ line_strict_) _ _ _ H).
  Qed.
  Lemma blank_app : forall u v, blank u -> blank v -> blank (u ++ v).
  Proof. intros u v H K. induction H; cbn [app]; [exact K| | |]; now constructor. Qed.
  Lemma blank_spaces : forall w, all is_space w -> blank w.
  Proof. intros w H. induction H as [|c w C _ IH]; constructor; [|exact IH]. apply orb_prop in C. destruct C as [C|C]; apply N.eqb_eq in C; auto. Qed.
  Lemma blanks_more : forall x, blank x -> forall u, x = u ++ [10%N] -> forall db, blocks cfg b db -> forall w, all is_space w -> blocks cfg (w ++ u ++ 10%N :: b) db.
  Proof.
    assert (L : forall t db, blocks cfg t db -> forall w e, all is_space w -> is_eol e -> blocks cfg (w ++ e ++ t) db).
    { intros t db H w e W E. destruct H as [t Bt|t bl m h r o l R H1 H2 H3].
      - constructor. apply blank_app; [now apply blank_spaces|]. destruct E as [-> | ->]; now constructor.
      - apply (Blocks_more cfg _ ((w ++ e) :: bl) m h r); try assumption. apply (rep_more blank_line _ _ t); [|exact R]. split; [now rewrite <- app_assoc|]. exists w, (e ++ t). split; [reflexivity|]. split; [exact W|]. now constructor. }
    intros x H. induction H as [|c x C H IH|x H IH|x H IH]; intros u E db D w W.
    - destruct u; discriminate.
    - destruct u as [|d u]; cbn [app] in E; injection E as -> E; [destruct C as [C|C]; discriminate|]. replace (w ++ (d :: u) ++ 10%N :: b) with ((w ++ [d]) ++ u ++ 10%N :: b) by now rewrite <- app_assoc.
      apply (IH u E _ D). apply Forall_app. split; [exact W|]. constructor; [|constructor]. destruct C as [-> | ->]; reflexivity.
    - destruct u as [|d u]; cbn [app] in E; [|injection E as <- E].
      + exact (L _ _ D w [10%N] W (or_introl eq_refl)).
      + apply (L (u ++ 10%N :: b) db) with (e := [10%N]); [|exact W|now left]. exact (IH u E _ D [] (Forall_nil _)).
    - destruct u as [|d u]; cbn [app] in E; [discriminate|injection E as <- E]. destruct u as [|d u]; cbn [app] in E; [|injection E as <- E].
      + exact (L _ _ D w [13%N; 10%N] W (or_intror eq_refl)).
      + apply (L (u ++ 10%N :: b) db) with (e := [13%N; 10%N]); [|exact W|now right]. exact (IH u E _ D [] (Forall_nil _)).
  Qed.
  Lemma blocks_append : forall s, fences_closed cfg s -> forall s', ex s s' -> calm s -> forall db, blocks cfg b db -> exists da, blocks cfg s da /\ blocks cfg s' (da ++ db).
  Proof.
    intros s H. induction H as [s Bs|c s bl m h r o R H1 H2 Ec D _ IH]; intros s' F C db Db.
    - exists []. split; [now constructor|]. cbn [app]. destruct F as [(u & -> & ->)|[-> ->]].
      + replace (u ++ 10%N :: 10%N :: b) with ([] ++ (u ++ [10%N]) ++ 10%N :: b) by now rewrite <- app_assoc. apply (blanks_more (u ++ [10%N; 10%N]) Bs); [now rewrite <- app_assoc|exact Db|apply Forall_nil].
      + exact (blanks_more [10%N] Bs [] eq_refl db Db [] (Forall_nil _)).
    - destruct F as [F|[-> ->]]; [|now apply blanks_last in R]. destruct (blanks_fore _ _ F _ _ R) as (m' & R' & Fm).
      pose proof (repeated_lined _ _ (strict_lined _ _ blank_strict) _ _ _ R) as T. destruct (tail_split _ _ (block_lined_ _ _ _ (calm_tail _ _ C T) H1)) as (c2 & Em).
      destruct (block_fore m m' h r c2 Fm (calm_tail _ _ C T) H1 Em) as (r' & H1' & Fr & Cr).
      { intros Th Fl. apply (D Th). destruct T as [T|(w & T & W)].
        - assert (c = c2) as ->; [|exact Fl]. apply (app_inv_tail r). congruence.
        - assert (c = w ++ c2) as ->. { apply (app_inv_tail r). rewrite <- app_assoc, <- Em, <- T. now symmetry. } apply fence_right; [|exact Fl].
          destruct W as [W|W]; [|exact W]. exfalso. apply (proj1 (ext_ne _ _ Fm)). exact W. }
      destruct (IH r' Fr Cr db Db) as (da & B1 & B2). exists (o ++ da). split; [now apply (Blocks_more cfg s bl m h r)|]. rewrite <- app_assoc. now apply (Blocks_more cfg s' bl m' h r').
  Qed.
End Rules.
End Append.
