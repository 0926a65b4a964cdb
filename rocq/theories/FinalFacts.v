(** A line feed at the end of the source: every rule of the block grammar
    (SpecBlock.v) reads [s] and [s ++ [10]] alike. *)
From Coq Require Import String Lia List.
From Verif Require Import SpecParser SpecBlock SpecFinal HtmlStart.
Import ListNotations.
Open Scope list_scope.
Local Notation len := (@List.length _).


Section Final.
Variable defs : bool.
(** the sources considered *)
Definition fair (s : str) : Prop :=
  ~ ends_in 13%N s /\ (defs = true -> ~ ends_in (ch "\") s).
Definition fin (s s' : str) : Prop := (fair s /\ s' = s ++ [10%N]) \/ (s = [] /\ s' = []).
Definition insensitive {A} (R : rule A) : Prop := forall s s', fin s s' -> forall x,
  (forall r, R s x r -> exists r', R s' x r' /\ fin r r') /\ (forall r', R s' x r' -> exists r, R s x r /\ fin r r').

Lemma fair_suffix : forall t m, fair (t ++ m) -> fair m.
Proof.
  intros t m (H1 & H2). split.
  - intros (u & ->). apply H1. exists (t ++ u). now rewrite app_assoc.
  - intros D (u & ->). apply (H2 D). exists (t ++ u). now rewrite app_assoc.
Qed.
Lemma fin_nil : fin [] []. Proof. right. now split. Qed.
Lemma fin_off : forall t m s', fin (t ++ m) s' -> exists m', s' = t ++ m' /\ fin m m'.
Proof.
  intros t m s' [[F ->]|[E ->]].
  - exists (m ++ [10%N]). rewrite app_assoc. split; [reflexivity|]. left. split; [now apply fair_suffix in F|reflexivity].
  - apply app_eq_nil in E. destruct E as [-> ->]. exists []. split; [reflexivity|apply fin_nil].
Qed.
Lemma snoc_split : forall (s t m' : str), s ++ [10%N] = t ++ m' -> (exists m, m' = m ++ [10%N] /\ s = t ++ m) \/ (m' = [] /\ t = s ++ [10%N]).
Proof.
  intros s t m' E. destruct m' as [|c m'] using rev_ind; [right; now rewrite app_nil_r in E|].
  rewrite app_assoc in E. apply app_inj_tail in E. destruct E as [-> <-]. left. eauto.
Qed.
Lemma fin_back : forall t m' s, fin s (t ++ m') -> ~ In 10%N t \/ m' <> [] -> exists m, s = t ++ m /\ fin m m'.
Proof.
  intros t m' s [[F E]|[-> E]] H.
  - symmetry in E. apply snoc_split in E. destruct E as [(m & -> & ->)|[-> ->]].
    + exists m. split; [reflexivity|]. left. split; [now apply fair_suffix in F|reflexivity].
    + exfalso. destruct H as [H|H]; [|congruence]. apply H. apply in_or_app. right. now left.
  - apply app_eq_nil in E. destruct E as [-> ->]. exists []. split; [reflexivity|apply fin_nil].
Qed.
Lemma fin_off1 : forall c m s', fin (c :: m) s' -> exists m', s' = c :: m' /\ fin m m'.
Proof. intros c m s' F. exact (fin_off [c] m s' F). Qed.
Lemma fin_back1 : forall c m' s, c <> 10%N -> fin s (c :: m') -> exists m, s = c :: m /\ fin m m'.
Proof. intros c m' s N F. apply (fin_back [c] m' s F). left. intros [J|[]]. congruence. Qed.
Lemma begins_fin : forall c s s', c <> 10%N -> fin s s' -> (begins_with c s <-> begins_with c s').
Proof.
  intros c s s' N F. split; intros (t & E).
  - subst s. apply fin_off1 in F. destruct F as (m' & -> & _). now exists m'.
  - subst s'. apply fin_back1 in F; [|exact N]. destruct F as (m & -> & _). now exists m.
Qed.

(** ** Lines *)
Lemma end_fin : forall s s', fin s s' -> (forall r, line_end s r -> exists r', line_end s' r' /\ fin r r') /\ (forall r', line_end s' r' -> exists r, line_end s r /\ fin r r').
Proof.
  intros s s' F. split.
  - intros r H. inversion H; subst.
    + destruct (fin_off _ _ _ F) as (m' & -> & Fm). exists m'. split; [now constructor|exact Fm].
    + destruct F as [[_ ->]|[_ ->]]; exists []; (split; [|apply fin_nil]); [|apply end_eof]. cbn [app]. apply (end_eol [10%N] []). now left.
  - intros r' H. inversion H; subst.
    + destruct F as [[F E]|[-> E]].
      * symmetry in E. apply snoc_split in E. destruct E as [(m & -> & ->)|[-> E]].
        { exists m. split; [now constructor|]. left. split; [now apply fair_suffix in F|reflexivity]. }
        { destruct H0 as [-> | ->].
          - destruct s as [|c s]; [exists []; split; [apply end_eof|apply fin_nil]|]. destruct s; discriminate.
          - change [13%N; 10%N] with ([13%N] ++ [10%N]) in E. apply app_inj_tail in E. destruct E as [<- _]. elim (proj1 F). now exists []. }
      * apply app_eq_nil in E. destruct E as [-> _]. destruct H0; discriminate.
    + destruct F as [[_ E]|[-> _]]; [now destruct s|]. exists []. split; [apply end_eof|apply fin_nil].
Qed.
Lemma line_end_fin : forall s s', fin s s' -> ((exists r, line_end s r) <-> exists r, line_end s' r).
Proof.
  intros s s' F. destruct (end_fin s s' F) as [X Y]. split; intros (r & H); [destruct (X r H) as (r' & ? & _)|destruct (Y r H) as (r' & ? & _)]; eauto.
Qed.
Lemma plain_fin : insensitive plain_line.
Proof.
  intros s s' F v. split.
  - intros r (m & -> & N1 & N2 & E). destruct (fin_off _ _ _ F) as (m' & -> & Fm). destruct (proj1 (end_fin _ _ Fm) r E) as (r' & E' & Fr). exists r'. split; [|exact Fr]. exists m'. tauto.
  - intros r (m' & -> & N1 & N2 & E). destruct (fin_back _ _ _ F (or_introl N1)) as (m & -> & Fm). destruct (proj2 (end_fin _ _ Fm) r E) as (r' & E' & Fr). exists r'. split; [|exact Fr]. exists m. tauto.
Qed.
Lemma text_fin : insensitive text_line.
Proof.
  intros s s' F v. split.
  - intros r (m & -> & N0 & N1 & E & N2). destruct (fin_off _ _ _ F) as (m' & -> & Fm). destruct (proj1 (end_fin _ _ Fm) r E) as (r' & E' & Fr). exists r'. split; [|exact Fr].
    exists m'. repeat split; try assumption. intros [B (u & U)]. destruct Fm as [[Fm ->]|[-> ->]].
    + destruct m as [|c m].
      * rewrite app_nil_r in F. destruct F as [[F _]|[F _]]; [|subst; now destruct u]. apply (proj1 F). now exists u.
      * apply N2. split; [|now exists u]. destruct B as (t & B). injection B as -> _. now exists m.
    + destruct B as (t & B). discriminate.
  - intros r (m' & -> & N0 & N1 & E & N2). destruct (fin_back _ _ _ F (or_introl N1)) as (m & -> & Fm). destruct (proj2 (end_fin _ _ Fm) r E) as (r' & E' & Fr). exists r'. split; [|exact Fr].
    exists m. repeat split; try assumption. intros [B U]. apply N2. split; [|exact U]. destruct B as (t & ->). destruct Fm as [[_ ->]|[Fm _]]; [|discriminate]. cbn [app]. now exists (t ++ [10%N]).
Qed.
Lemma spaces_free : forall w, all is_space w -> ~ In 10%N w.
Proof. intros w W J. unfold all in W. rewrite Forall_forall in W. specialize (W _ J). discriminate W. Qed.
Lemma rep_free : forall k c, c <> 10%N -> ~ In 10%N (rep k c).
Proof. intros k c N J. unfold rep in J. apply repeat_spec in J. congruence. Qed.
Lemma strip_fin : forall k s s', fin s s' -> (forall m, strip k s m -> exists m', strip k s' m' /\ fin m m') /\ (forall m', strip k s' m' -> exists m, strip k s m /\ fin m m').
Proof.
  intros k s s' F. split.
  - intros m (j & -> & L & B). destruct (fin_off _ _ _ F) as (m' & -> & Fm). exists m'. split; [|exact Fm]. exists j. split; [reflexivity|]. split; [exact L|]. intros J X. apply (B J). now apply (begins_fin c_sp _ _ ltac:(discriminate) Fm).
  - intros m' (j & -> & L & B). destruct (fin_back _ _ _ F (or_introl (rep_free j c_sp ltac:(discriminate)))) as (m & -> & Fm). exists m. split; [|exact Fm]. exists j. split; [reflexivity|]. split; [exact L|]. intros J X. apply (B J). now apply (begins_fin c_sp _ _ ltac:(discriminate) Fm).
Qed.
Lemma applies_fin : forall A (R : rule A) s s', insensitive R -> fin s s' -> (applies R s <-> applies R s').
Proof.
  intros A R s s' H F. split; intros (x & r & E); [destruct (proj1 (H _ _ F x) r E) as (r' & ? & _)|destruct (proj2 (H _ _ F x) r E) as (r' & ? & _)]; now exists x, r'.
Qed.
Lemma repeated_fin : forall A (R : rule A), insensitive R -> insensitive (repeated R).
Proof.
  intros A R H s s' F l. split.
  - intros r E. revert s' F. induction E as [s N|s a m l r E _ IH]; intros s' F.
    + exists s'. split; [|exact F]. constructor. now rewrite <- (applies_fin _ _ _ _ H F).
    + destruct (proj1 (H _ _ F a) m E) as (m' & E' & Fm). destruct (IH _ Fm) as (r' & E2 & Fr). exists r'. split; [|exact Fr]. now apply (rep_more R s' a m').
  - intros r' E. revert s F. induction E as [s' N|s' a m' l r' E _ IH]; intros s F.
    + exists s. split; [|exact F]. constructor. now rewrite (applies_fin _ _ _ _ H F).
    + destruct (proj2 (H _ _ F a) m' E) as (m & E' & Fm). destruct (IH _ Fm) as (r & E2 & Fr). exists r. split; [|exact Fr]. now apply (rep_more R s a m).
Qed.
Lemma first_fin : forall A (l : list (rule A)), Forall insensitive l -> insensitive (first_of l).
Proof.
  intros A l H. induction H as [|R l H _ IH]; intros s s' F x; [split; intros r []|]. cbn [first_of]. destruct (IH s s' F x) as [I1 I2]. split.
  - intros r [E|[N E]]; [destruct (proj1 (H _ _ F x) r E) as (r' & E' & Fr); exists r'; auto|]. destruct (I1 r E) as (r' & E' & Fr). exists r'. split; [|exact Fr]. right. split; [|exact E']. now rewrite <- (applies_fin _ _ _ _ H F).
  - intros r [E|[N E]]; [destruct (proj2 (H _ _ F x) r E) as (r' & E' & Fr); exists r'; auto|]. destruct (I2 r E) as (r' & E' & Fr). exists r'. split; [|exact Fr]. right. split; [|exact E']. now rewrite (applies_fin _ _ _ _ H F).
Qed.
Lemma on_fin : forall A B (b : behavior B) (R : rule A), (b <> Ignore -> insensitive R) -> insensitive (on b R).
Proof.
  intros A B b R H s s' F x. unfold on. split; intros r [N E]; [destruct (proj1 (H N _ _ F x) r E) as (r' & ? & ?)|destruct (proj2 (H N _ _ F x) r E) as (r' & ? & ?)]; exists r'; auto.
Qed.
Ltac back1 F m Fm := match type of F with fin _ (?c :: _) => destruct (fin_back1 c _ _ ltac:(discriminate) F) as (m & -> & Fm) end.
Lemma fence_char : forall f, In f (lit "`~") -> f <> 10%N.
Proof. intros f [<-|[<-|[]]]; discriminate. Qed.
(** ** Code *)
Lemma code_line_fin : insensitive code_line.
Proof.
  intros s s' F v. split.
  - intros r (m & [-> | ->] & E).
    + destruct (fin_off _ _ _ F) as (m' & -> & Fm). destruct (proj1 (plain_fin _ _ Fm v) r E) as (r' & E' & Fr). exists r'. split; [|exact Fr]. exists m'. auto.
    + destruct (fin_off1 _ _ _ F) as (m' & -> & Fm). destruct (proj1 (plain_fin _ _ Fm v) r E) as (r' & E' & Fr). exists r'. split; [|exact Fr]. exists m'. auto.
  - intros r (m' & [-> | ->] & E).
    + destruct (fin_back _ _ _ F (or_introl (rep_free 4 c_sp ltac:(discriminate)))) as (m & -> & Fm). destruct (proj2 (plain_fin _ _ Fm v) r E) as (r' & E' & Fr). exists r'. split; [|exact Fr]. exists m. auto.
    + back1 F m Fm. destruct (proj2 (plain_fin _ _ Fm v) r E) as (r' & E' & Fr). exists r'. split; [|exact Fr]. exists m. auto.
Qed.
Lemma fence_end_fin : forall f n s s', f <> 10%N -> fin s s' -> (forall r, fence_end f n s r -> exists r', fence_end f n s' r' /\ fin r r') /\ (forall r', fence_end f n s' r' -> exists r, fence_end f n s r /\ fin r r').
Proof.
  intros f n s s' Nf F. split.
  - intros r (k & j & m & -> & L1 & L2 & E). destruct (fin_off _ _ _ F) as (m1 & -> & F1). destruct (fin_off _ _ _ F1) as (m' & -> & Fm). destruct (proj1 (end_fin _ _ Fm) r E) as (r' & E' & Fr).
    exists r'. split; [|exact Fr]. exists k, j, m'. auto.
  - intros r (k & j & m' & -> & L1 & L2 & E). destruct (fin_back _ _ _ F (or_introl (rep_free k c_sp ltac:(discriminate)))) as (m1 & -> & F1).
    destruct (fin_back _ _ _ F1 (or_introl (rep_free j f Nf))) as (m & -> & Fm). destruct (proj2 (end_fin _ _ Fm) r E) as (r' & E' & Fr). exists r'. split; [|exact Fr]. exists k, j, m. auto.
Qed.
Lemma fenced_line_fin : forall k f n, f <> 10%N -> insensitive (fenced_line k f n).
Proof.
  intros k f n Nf s s' F v. destruct (fence_end_fin f n s s' Nf F) as [X1 X2]. split.
  - intros r (N & m & S & E). destruct (proj1 (strip_fin _ _ _ F) m S) as (m' & S' & Fm). destruct (proj1 (plain_fin _ _ Fm v) r E) as (r' & E' & Fr). exists r'. split; [|exact Fr].
    split; [intros y Y; destruct (X2 y Y) as (z & Z & _); exact (N z Z)|]. exists m'. auto.
  - intros r (N & m & S & E). destruct (proj2 (strip_fin _ _ _ F) m S) as (m' & S' & Fm). destruct (proj2 (plain_fin _ _ Fm v) r E) as (r' & E' & Fr). exists r'. split; [|exact Fr].
    split; [intros y Y; destruct (X1 y Y) as (z & Z & _); exact (N z Z)|]. exists m'. auto.
Qed.
Lemma fenced_fin : insensitive r_fenced.
Proof.
  intros s s' F v. split.
  - intros r E. inversion E as [k f n m info m1 ls m2 r0 L1 If L2 B Hi Hr He E1 E2 E3]; subst. pose proof (fence_char f If) as Nf.
    destruct (fin_off _ _ _ F) as (x & -> & Fx). destruct (fin_off _ _ _ Fx) as (m' & -> & Fm).
    assert (I : exists m1', (info = None /\ line_end m' m1' \/ exists v, info = Some v /\ text_line m' v m1') /\ fin m1 m1').
    { destruct Hi as [[-> H]|(v & -> & H)]; [destruct (proj1 (end_fin _ _ Fm) _ H) as (y & Y & Fy)|destruct (proj1 (text_fin _ _ Fm v) _ H) as (y & Y & Fy)]; exists y; eauto. }
    destruct I as (m1' & I & F1). destruct (proj1 (repeated_fin _ _ (fenced_line_fin k f n Nf) _ _ F1 ls) _ Hr) as (m2' & R & F2). destruct (proj1 (fence_end_fin f n _ _ Nf F2) _ He) as (r' & Er & Fr).
    exists r'. split; [|exact Fr]. apply (R_fenced k f n m' info m1' ls m2' r'); try assumption. now rewrite <- (begins_fin f _ _ Nf Fm).
  - intros r E. inversion E as [k f n m info m1 ls m2 r0 L1 If L2 B Hi Hr He E1 E2 E3]; subst. pose proof (fence_char f If) as Nf.
    destruct (fin_back _ _ _ F (or_introl (rep_free k c_sp ltac:(discriminate)))) as (x & -> & Fx). destruct (fin_back _ _ _ Fx (or_introl (rep_free n f Nf))) as (m' & -> & Fm).
    assert (I : exists m1', (info = None /\ line_end m' m1' \/ exists v, info = Some v /\ text_line m' v m1') /\ fin m1' m1).
    { destruct Hi as [[-> H]|(v & -> & H)]; [destruct (proj2 (end_fin _ _ Fm) _ H) as (y & Y & Fy)|destruct (proj2 (text_fin _ _ Fm v) _ H) as (y & Y & Fy)]; exists y; eauto. }
    destruct I as (m1' & I & F1). destruct (proj2 (repeated_fin _ _ (fenced_line_fin k f n Nf) _ _ F1 ls) _ Hr) as (m2' & R & F2). destruct (proj2 (fence_end_fin f n _ _ Nf F2) _ He) as (r' & Er & Fr).
    exists r'. split; [|exact Fr]. apply (R_fenced k f n m' info m1' ls m2' r'); try assumption. now rewrite (begins_fin f _ _ Nf Fm).
Qed.
Ltac fwd H F E r' E' Fr := destruct (proj1 (H _ _ F _) _ E) as (r' & E' & Fr).
Ltac bwd H F E r' E' Fr := destruct (proj2 (H _ _ F _) _ E) as (r' & E' & Fr).
Ltac close r' Fr := exists r'; split; [|exact Fr].
Lemma code_fin : insensitive r_code_block.
Proof.
  intros s s' F v. split; intros r E; inversion E as [s0 ls r0 N R|s0 h r0 R]; subst.
  - fwd (repeated_fin _ _ code_line_fin) F R r' R' Fr. close r' Fr. now constructor.
  - fwd fenced_fin F R r' R' Fr. close r' Fr. now constructor.
  - bwd (repeated_fin _ _ code_line_fin) F R r' R' Fr. close r' Fr. now constructor.
  - bwd fenced_fin F R r' R' Fr. close r' Fr. now constructor.
Qed.
(** ** Headings, breaks *)
Lemma longest_fin : forall f s w m w' m', f 10%N = false -> fin (w ++ m) s -> s = w' ++ m' -> fin m m' -> w = w' -> (longest f (w ++ m) w m <-> longest f (w' ++ m') w' m').
Proof.
  intros f s w m w' m' N F E Fm <-. unfold longest. split; intros (_ & A & B); (split; [reflexivity|split; [exact A|]]); intros c (t & C).
  - subst m'. destruct (N.eq_dec c 10) as [->|X]; [exact N|]. apply B. apply (begins_fin c _ _ X Fm). now exists t.
  - subst m. destruct (N.eq_dec c 10) as [->|X]; [exact N|]. apply B. apply (begins_fin c _ _ X Fm). now exists t.
Qed.
Lemma atx_fin : forall bare, insensitive (r_atx bare).
Proof.
  intros bare s s' F v. split; intros r E; inversion E as [n w m t r0 L B W Z T]; subst.
  - destruct (fin_off _ _ _ F) as (x & -> & Fx). destruct (fin_off _ _ _ Fx) as (m' & -> & Fm). fwd text_fin Fm T r' T' Fr. close r' Fr.
    constructor; try assumption; [intros J X; apply (B J); now apply (begins_fin (ch "#") _ _ ltac:(discriminate) Fx)|]. apply (longest_fin is_space _ w m w m' eq_refl Fx eq_refl Fm eq_refl). exact W.
  - destruct (fin_back _ _ _ F (or_introl (rep_free n (ch "#") ltac:(discriminate)))) as (x & -> & Fx). destruct (fin_back _ _ _ Fx (or_introl (spaces_free w (proj1 (proj2 W))))) as (m' & -> & Fm). bwd text_fin Fm T r' T' Fr. close r' Fr.
    constructor; try assumption; [intros J X; apply (B J); now apply (begins_fin (ch "#") _ _ ltac:(discriminate) Fx)|]. apply (longest_fin is_space _ w m' w m eq_refl Fx eq_refl Fm eq_refl). exact W.
Qed.
Ltac endf H F E r' E' Fr := destruct (proj1 (H _ _ F) _ E) as (r' & E' & Fr).
Ltac endb H F E r' E' Fr := destruct (proj2 (H _ _ F) _ E) as (r' & E' & Fr).
Ltac off F m Fm := destruct (fin_off _ _ _ F) as (m & -> & Fm).
Ltac back F N m Fm := destruct (fin_back _ _ _ F (or_introl N)) as (m & -> & Fm).
Lemma underline_fin : insensitive underline.
Proof.
  assert (C : forall c l, In (c, l) [(ch "=", Level1); (ch "-", Level2)] -> c <> 10%N) by (intros c l [X|[X|[]]]; injection X as <- _; discriminate).
  intros s s' F v. split; intros r (k & c & n & w & m & -> & L1 & L2 & I & W & E).
  - off F x Fx. off Fx y Fy. off Fy m' Fm. endf end_fin Fm E r' E' Fr. close r' Fr. exists k, c, n, w, m'. tauto.
  - back F (rep_free k c_sp ltac:(discriminate)) x Fx. back Fx (rep_free n c (C _ _ I)) y Fy. back Fy (spaces_free w W) m' Fm. endb end_fin Fm E r' E' Fr. close r' Fr. exists k, c, n, w, m'. tauto.
Qed.
Lemma break_fin : insensitive r_break_line.
Proof.
  assert (C : forall c, In c (lit "-_*") -> c <> 10%N) by (intros c [X|[X|[X|[]]]]; subst c; discriminate).
  intros s s' F v. split; intros r H; inversion H as [k c n w m r0 L1 L2 I W E]; subst.
  - off F x Fx. off Fx y Fy. off Fy m' Fm. endf end_fin Fm E r' E' Fr. close r' Fr. now constructor.
  - back F (rep_free k c_sp ltac:(discriminate)) x Fx. back Fx (rep_free n c (C _ I)) y Fy. back Fy (spaces_free w W) m' Fm. endb end_fin Fm E r' E' Fr. close r' Fr. now constructor.
Qed.
(** ** Quotes *)
Lemma quote_line_fin : insensitive quote_line.
Proof.
  intros s s' F v. split; intros r (k & m & -> & L & E).
  - off F x Fx. destruct (fin_off1 _ _ _ Fx) as (m' & -> & Fm). fwd plain_fin Fm E r' E' Fr. close r' Fr. exists k, m'. tauto.
  - back F (rep_free k c_sp ltac:(discriminate)) x Fx. back1 Fx m' Fm. bwd plain_fin Fm E r' E' Fr. close r' Fr. exists k, m'. tauto.
Qed.
Lemma quote_fin : insensitive r_quote.
Proof.
  intros s s' F v. split; intros r H; inversion H as [s0 ls r0 N R B]; subst.
  - fwd (repeated_fin _ _ quote_line_fin) F R r' R' Fr. close r' Fr. now constructor.
  - bwd (repeated_fin _ _ quote_line_fin) F R r' R' Fr. close r' Fr. now constructor.
Qed.
Lemma alert_fin : forall u, insensitive (r_alert u).
Proof.
  intros up s s' F v. split; intros r H; inversion H as [s0 l ls r0 u name ty R T U A B]; subst.
  - fwd (repeated_fin _ _ quote_line_fin) F R r' R' Fr. close r' Fr. now apply (R_alert up s' l ls r' u name ty).
  - bwd (repeated_fin _ _ quote_line_fin) F R r' R' Fr. close r' Fr. now apply (R_alert up s l ls r' u name ty).
Qed.
(** ** Lists *)
Definition prefix_rule {A} (R : rule A) : Prop := forall s x r, R s x r -> exists t, s = t ++ r /\ ~ In 10%N t /\ forall r', R (t ++ r') x r'.
Lemma digit_free : forall c v, digit 10 c v -> c <> 10%N.
Proof.
  intros c v [_ H] ->. assert (X : forall l, ~ In 10%N l -> forall n, nth_error l n <> Some 10%N) by (intros l N n E; apply nth_error_In in E; contradiction).
  destruct H as [H|H]; revert H; apply X; cbn [lit In map]; intros J; repeat (destruct J as [J|J]; [discriminate J|]); exact J.
Qed.
Lemma numeral_free : forall ds n, numeral 10 ds n -> ~ In 10%N ds.
Proof.
  intros ds n H. induction H as [c v D|s n c v _ IH D]; intro J.
  - destruct J as [J|[]]. now apply digit_free in D.
  - apply in_app_or in J. destruct J as [J|[J|[]]]; [tauto|]. now apply digit_free in D.
Qed.
Lemma marker_prefix : prefix_rule marker_at.
Proof.
  intros s k r H. inversion H as [ds n c r0 N L I|c b r0 I]; subst.
  - exists (ds ++ [c]). rewrite <- app_assoc. split; [reflexivity|]. split.
    + intros J. apply in_app_or in J. destruct J as [J|[J|[]]]; [now apply (numeral_free ds n)|]. subst c. destruct I as [I|[I|[]]]; discriminate.
    + intros r'. rewrite <- app_assoc. now constructor.
  - exists [c]. split; [reflexivity|]. split.
    + intros [J|[]]. subst c. destruct I as [I|[I|[I|[]]]]; discriminate.
    + intros r'. now constructor.
Qed.
Lemma task_prefix : prefix_rule task_at.
Proof.
  intros s x r H. inversion H as [c r0 I|r0]; subst.
  - exists [ch "["; c; ch "]"]. split; [reflexivity|]. split.
    + intros [J|[J|[J|[]]]]; try discriminate. subst c. destruct I as [I|[I|[]]]; discriminate.
    + intros r'. now constructor.
  - exists (lit "[ ]"). split; [reflexivity|]. split; [intros [J|[J|[J|[]]]]; discriminate|]. intros r'. constructor.
Qed.
Lemma prefix_fin : forall A (R : rule A), prefix_rule R -> insensitive R.
Proof.
  intros A R H s s' F x. split; intros r E; destruct (H _ _ _ E) as (t & -> & N & P).
  - off F r' Fr. close r' Fr. apply P.
  - back F N r' Fr. close r' Fr. apply P.
Qed.
Lemma diff_len : forall (t r : str), len (t ++ r) - len r = len t.
Proof. intros. rewrite app_length. lia. Qed.
Lemma item_empty_fin : insensitive item_empty.
Proof.
  intros s s' F x. split; intros r H; inversion H as [k y kind w m r0 L M W E]; subst; destruct (marker_prefix _ _ _ M) as (t & -> & N & P); rewrite diff_len.
  - off F a Fa. off Fa b Fb. off Fb m' Fm. endf end_fin Fm E r' E' Fr. close r' Fr. rewrite <- (diff_len t (w ++ m')). now constructor.
  - back F (rep_free k c_sp ltac:(discriminate)) a Fa. back Fa N b Fb. back Fb (spaces_free w W) m' Fm. endb end_fin Fm E r' E' Fr. close r' Fr. rewrite <- (diff_len t (w ++ m')). now constructor.
Qed.
Lemma gap_len : forall (t : str) j r, len (t ++ rep j c_sp ++ r) - len r = len t + j.
Proof. intros. rewrite !app_length. unfold rep. rewrite repeat_length. lia. Qed.
Lemma item_task_fin : insensitive item_task.
Proof.
  intros s s' F x. split; intros r H; inversion H as [k y kind j t m1 m r0 L M Lj T E]; subst; destruct (marker_prefix _ _ _ M) as (p & -> & N & P); destruct (task_prefix _ _ _ T) as (q & -> & N2 & Q); rewrite gap_len.
  - off F a Fa. off Fa b Fb. off Fb c Fc. off Fc m' Fm. endf end_fin Fm E r' E' Fr. close r' Fr. rewrite <- (gap_len p j (q ++ m')). now apply (Item_task k _ kind j t (q ++ m') m' r').
  - back F (rep_free k c_sp ltac:(discriminate)) a Fa. back Fa N b Fb. back Fb (rep_free j c_sp ltac:(discriminate)) c Fc. back Fc N2 m' Fm. endb end_fin Fm E r' E' Fr. close r' Fr. rewrite <- (gap_len p j (q ++ m')). now apply (Item_task k _ kind j t (q ++ m') m' r').
Qed.
Lemma task_sp : forall m m', fin m m' -> ((exists x y, task_at m x (c_sp :: y)) <-> (exists x y, task_at m' x (c_sp :: y))).
Proof.
  intros m m' F. split; intros (x & y & T).
  - fwd (prefix_fin _ _ task_prefix) F T r T' Fr. destruct (fin_off1 _ _ _ Fr) as (z & -> & _). eauto.
  - bwd (prefix_fin _ _ task_prefix) F T r T' Fr. back1 Fr z Fz. eauto.
Qed.
Lemma item_text_fin : insensitive item_text.
Proof.
  intros s s' F x. split; intros r H; inversion H as [k y kind j m1 t m v r0 L M Lj B T E]; subst; destruct (marker_prefix _ _ _ M) as (p & -> & N & P); rewrite gap_len.
  - off F a Fa. off Fa b Fb. off Fb c Fc.
    assert (X : exists m', ((exists x, t = Some x /\ task_at c x (c_sp :: m')) \/ (t = None /\ m' = c /\ forall x y, ~ task_at c x (c_sp :: y))) /\ fin m m').
    { destruct T as [(x & -> & T)|(-> & -> & T)].
      - fwd (prefix_fin _ _ task_prefix) Fc T z T' Fz. destruct (fin_off1 _ _ _ Fz) as (m' & -> & Fm). exists m'. split; [left; eauto|exact Fm].
      - exists c. split; [right|exact Fc]. split; [reflexivity|]. split; [reflexivity|]. intros x y Y. destruct (proj2 (task_sp _ _ Fc)) as (x' & y' & Z); [eauto|]. exact (T _ _ Z). }
    destruct X as (m' & X & Fm). fwd plain_fin Fm E r' E' Fr. close r' Fr. rewrite <- (gap_len p j c). apply (Item_text k _ kind j c t m' v r'); try assumption; [apply P|].
    intros J Y. apply (B J). now apply (begins_fin c_sp _ _ ltac:(discriminate) Fc).
  - back F (rep_free k c_sp ltac:(discriminate)) a Fa. back Fa N b Fb. back Fb (rep_free j c_sp ltac:(discriminate)) c Fc.
    assert (X : exists m', ((exists x, t = Some x /\ task_at c x (c_sp :: m')) \/ (t = None /\ m' = c /\ forall x y, ~ task_at c x (c_sp :: y))) /\ fin m' m).
    { destruct T as [(x & -> & T)|(-> & -> & T)].
      - bwd (prefix_fin _ _ task_prefix) Fc T z T' Fz. back1 Fz m' Fm. exists m'. split; [left; eauto|exact Fm].
      - exists c. split; [right|exact Fc]. split; [reflexivity|]. split; [reflexivity|]. intros x y Y. destruct (proj1 (task_sp _ _ Fc)) as (x' & y' & Z); [eauto|]. exact (T _ _ Z). }
    destruct X as (m' & X & Fm). bwd plain_fin Fm E r' E' Fr. close r' Fr. rewrite <- (gap_len p j c). apply (Item_text k _ kind j c t m' v r'); try assumption; [apply P|].
    intros J Y. apply (B J). now apply (begins_fin c_sp _ _ ltac:(discriminate) Fc).
Qed.
Lemma start_fin : insensitive item_start.
Proof. apply first_fin. repeat apply Forall_cons; [apply item_empty_fin|apply item_task_fin|apply item_text_fin|apply Forall_nil]. Qed.
Lemma other_fin : forall k n s s', fin s s' -> (other_item k n s <-> other_item k n s').
Proof.
  intros k n s s' F. split; intros (j & m & k' & r & -> & L & M & Q).
  - off F m' Fm. fwd (prefix_fin _ _ marker_prefix) Fm M r' M' Fr. exists j, m', k', r'. auto.
  - back F (rep_free j c_sp ltac:(discriminate)) m' Fm. bwd (prefix_fin _ _ marker_prefix) Fm M r' M' Fr. exists j, m', k', r'. auto.
Qed.
(** blank lines that are not the last *)
Lemma blank_off : forall s v r s', blank_line s v r -> r <> [] -> fin s s' -> exists r', blank_line s' v r' /\ fin r r'.
Proof.
  intros s v r s' (E & w & m & Es & W & L) N F. inversion L; subst; [|congruence]. rewrite Es in F. off F a Fa. off Fa r' Fr. exists r'. split; [|exact Fr].
  assert (V : v = w ++ e). { apply (app_inv_tail r). now rewrite <- app_assoc. } subst v. split; [now rewrite <- app_assoc|].
  exists w, (e ++ r'). split; [reflexivity|]. split; [exact W|]. now constructor.
Qed.
Lemma blank_back : forall s v r' s', blank_line s' v r' -> r' <> [] -> fin s s' -> exists r, blank_line s v r /\ fin r r'.
Proof.
  intros s v r' s' (E & w & m & Es & W & L) N F. inversion L; subst; [|congruence]. rewrite Es in F. back F (spaces_free w W) a Fa. destruct (fin_back _ _ _ Fa (or_intror N)) as (r & -> & Fr). exists r. split; [|exact Fr].
  assert (V : v = w ++ e). { apply (app_inv_tail r'). now rewrite <- app_assoc. } subst v. split; [now rewrite <- app_assoc|].
  exists w, (e ++ r). split; [reflexivity|]. split; [exact W|]. now constructor.
Qed.

Lemma blank_none : ~ ~ applies blank_line [].
Proof. intros N. apply N. exists [], []. split; [reflexivity|]. exists [], []. split; [reflexivity|]. split; [apply Forall_nil|apply end_eof]. Qed.
Lemma blank_applies : forall s s', fin s s' -> (applies blank_line s <-> applies blank_line s').
Proof.
  intros s s' F. split.
  - intros (v & r & E & w & m & Es & W & L). subst s. rewrite Es in F. off F m' Fm. endf end_fin Fm L r' L' Fr. inversion L'; subst.
    + exists (w ++ e), r'. split; [now rewrite app_assoc|]. exists w, (e ++ r'). auto.
    + exists w, []. split; [reflexivity|]. exists w, []. auto.
  - intros (v & r & E & w & m & Es & W & L). subst s'. rewrite Es in F. back F (spaces_free w W) m' Fm. endb end_fin Fm L r' L' Fr. inversion L'; subst.
    + exists (w ++ e), r'. split; [now rewrite app_assoc|]. exists w, (e ++ r'). auto.
    + exists w, []. split; [reflexivity|]. exists w, []. auto.
Qed.
Lemma blanks_ne : forall s bl m, repeated blank_line s bl m -> m <> [] /\ s <> [].
Proof.
  intros s bl m H. induction H as [s N|s v m l r E _ [IH1 IH2]].
  - split; intros ->; now apply blank_none.
  - split; [exact IH1|]. intros ->. destruct E as [E _]. symmetry in E. apply app_eq_nil in E. tauto.
Qed.
Lemma blanks_fin : insensitive (repeated blank_line).
Proof.
  intros s s' F l. split.
  - intros r E. revert s' F. induction E as [s N|s a m l r E R IH]; intros s' F.
    + exists s'. split; [|exact F]. constructor. now rewrite <- (blank_applies _ _ F).
    + destruct (blank_off _ _ _ _ E (proj2 (blanks_ne _ _ _ R)) F) as (m' & E' & Fm). destruct (IH _ Fm) as (r' & E2 & Fr). exists r'. split; [|exact Fr]. now apply (rep_more blank_line s' a m').
  - intros r' E. revert s F. induction E as [s' N|s' a m' l r' E R IH]; intros s F.
    + exists s. split; [|exact F]. constructor. now rewrite (blank_applies _ _ F).
    + destruct (blank_back _ _ _ _ E (proj2 (blanks_ne _ _ _ R)) F) as (m & E' & Fm). destruct (IH _ Fm) as (r & E2 & Fr). exists r. split; [|exact Fr]. now apply (rep_more blank_line s a m).
Qed.
Lemma item_line_fin : forall k n, insensitive (item_line k n).
Proof.
  intros k n.
  assert (X : insensitive (first_of [ (fun s v r => exists m, strip n s m /\ text_line m v r);
             (fun s v r => exists bl m v', bl <> [] /\ repeated blank_line s bl (rep n c_sp ++ m) /\ text_line m v' r /\ v = concat bl ++ v') ])).
  { apply first_fin. apply Forall_cons; [|apply Forall_cons; [|apply Forall_nil]]; intros s s' F v; split.
    - intros r (m & M & T). endf (strip_fin n) F M m' M' Fm. fwd text_fin Fm T r' T' Fr. close r' Fr. eauto.
    - intros r (m & M & T). endb (strip_fin n) F M m' M' Fm. bwd text_fin Fm T r' T' Fr. close r' Fr. eauto.
    - intros r (bl & m & v' & N & R & T & ->). fwd blanks_fin F R a R' Fa. off Fa m' Fm. fwd text_fin Fm T r' T' Fr. close r' Fr. exists bl, m', v'. auto.
    - intros r (bl & m & v' & N & R & T & ->). bwd blanks_fin F R a R' Fa. back Fa (rep_free n c_sp ltac:(discriminate)) m' Fm. bwd text_fin Fm T r' T' Fr. close r' Fr. exists bl, m', v'. auto. }
  intros s s' F v. unfold item_line. split; intros r (N1 & N2 & E).
  - fwd X F E r' E' Fr. close r' Fr. rewrite <- (applies_fin _ _ _ _ break_fin F), <- (other_fin _ _ _ _ F). auto.
  - bwd X F E r' E' Fr. close r' Fr. rewrite (applies_fin _ _ _ _ break_fin F), (other_fin _ _ _ _ F). auto.
Qed.
Lemma item_fin : insensitive item_at.
Proof.
  intros s s' F x. split; intros r H; inversion H as [s0 k n t v m ls r0 S R]; subst.
  - fwd start_fin F S m' S' Fm. fwd (repeated_fin _ _ (item_line_fin k n)) Fm R r' R' Fr. close r' Fr. now apply (Item s' k n t v m' ls).
  - bwd start_fin F S m' S' Fm. bwd (repeated_fin _ _ (item_line_fin k n)) Fm R r' R' Fr. close r' Fr. now apply (Item s k n t v m' ls).
Qed.
Lemma list_fin : insensitive r_list.
Proof.
  intros s s' F x. split; intros r H; inversion H as [s0 k y items r0 R]; subst.
  - fwd (repeated_fin _ _ item_fin) F R r' R' Fr. close r' Fr. now constructor.
  - bwd (repeated_fin _ _ item_fin) F R r' R' Fr. close r' Fr. now constructor.
Qed.
(** ** HTML *)
Lemma until_nil : forall s v r, html_at s v r -> begins_with (ch "<") s.
Proof.
  intros s v r H. unfold html_at in H. cbn [first_of] in H.
  assert (C : forall o c s v r, closed (ch "<" :: o) c s v r -> begins_with (ch "<") s).
  { intros o c y z q (body & -> & -> & _). cbn [app]. eexists. reflexivity. }
  repeat match type of H with _ \/ _ => destruct H as [H|[_ H]] end.
  - destruct H as (t & x & body & e & -> & -> & _). cbn [app]. eexists. reflexivity.
  - eapply C. exact H.
  - eapply C. exact H.
  - destruct H as (c & _ & H). eapply C. exact H.
  - eapply C. exact H.
  - destruct H as (o & t & x & body & e & m & -> & -> & [<-|[<-|[]]] & _); cbn [app lit]; eexists; reflexivity.
  - destruct H as (t & x & body & e & -> & -> & [H|H] & _).
    + destruct H as (m & n & m1 & l & m2 & w & c & -> & _). eexists. reflexivity.
    + destruct H as (m & n & w & -> & _). eexists. reflexivity.
  - destruct H.
Qed.
(** ** Definitions *)
Lemma footnote_line_fin : insensitive footnote_line.
Proof.
  intros s s' F v. split; intros r (m & -> & E).
  - off F m' Fm. fwd text_fin Fm E r' E' Fr. close r' Fr. exists m'. auto.
  - back F (rep_free 3 c_sp ltac:(discriminate)) m' Fm. bwd text_fin Fm E r' E' Fr. close r' Fr. exists m'. auto.
Qed.
Lemma strip_ne : forall k s m, strip k s m -> m <> [] -> s <> [].
Proof. intros k s m (j & -> & _) N E. apply app_eq_nil in E. tauto. Qed.
Lemma text_ne : forall m v r, text_line m v r -> m <> [].
Proof. intros m v r (y & -> & N & _) E. apply app_eq_nil in E. tauto. Qed.
Lemma back_ne : forall t m' s, fin s (t ++ m') -> m' <> [] -> exists m, s = t ++ m /\ fin m m'.
Proof. intros t m' s F N. apply fin_back; [exact F|now right]. Qed.
Lemma footnote_fin : insensitive r_footnote_def.
Proof.
  intros s s' F x. split; intros r H; inversion H as [k label m m1 v m2 ls r0 L N1 N2 S T R]; subst.
  - off F a Fa. off Fa b Fb. off Fb c Fc. off Fc m' Fm. endf (strip_fin 3) Fm S m1' S' F1. fwd text_fin F1 T m2' T' F2. fwd (repeated_fin _ _ footnote_line_fin) F2 R r' R' Fr. close r' Fr.
    now apply (R_footnote_def k label m' m1' v m2' ls r').
  - pose proof (strip_ne _ _ _ S (text_ne _ _ _ T)) as N. rewrite !app_assoc in F. destruct (back_ne _ _ _ F N) as (m' & -> & Fm). rewrite <- !app_assoc.
    endb (strip_fin 3) Fm S m1' S' F1. bwd text_fin F1 T m2' T' F2. bwd (repeated_fin _ _ footnote_line_fin) F2 R r' R' Fr. close r' Fr.
    now apply (R_footnote_def k label m' m1' v m2' ls r').
Qed.
Lemma bracket_prefix : forall s x r, bracket_at s x r -> exists t, s = t ++ r /\ forall r', bracket_at (t ++ r') x r'.
Proof.
  intros s x r (raw & -> & L & Ft). exists (lit "[" ++ raw ++ lit "]"). rewrite <- !app_assoc. split; [reflexivity|]. intros r'. exists raw. rewrite <- !app_assoc. auto.
Qed.
Lemma title_fin : insensitive title_at.
Proof.
  intros s s' F t. split; intros r (o & c & raw & I & T & ->).
  - change (o :: raw ++ c :: r) with ((o :: raw) ++ [c] ++ r) in F. off F a Fa. off Fa r' Fr. close r' Fr. exists o, c, raw. auto.
  - assert (N : ~ In 10%N [c]) by (intros [J|[]]; subst c; destruct I as [I|[I|[I|[]]]]; discriminate).
    change (o :: raw ++ c :: r) with ((o :: raw) ++ [c] ++ r) in F. destruct (back_ne _ _ _ F ltac:(discriminate)) as (a & -> & Fa). back Fa N r' Fr. close r' Fr. exists o, c, raw. auto.
Qed.
Lemma title_ne : forall m t r, title_at m t r -> m <> [].
Proof. intros m t r (o & c & raw & _ & _ & ->). discriminate. Qed.
Lemma def_title_fin : insensitive definition_title.
Proof.
  intros s s' F t. split; intros r (w & m & -> & N & G & T).
  - off F m' Fm. fwd title_fin Fm T r' T' Fr. close r' Fr. exists w, m'. auto.
  - destruct (back_ne _ _ _ F (title_ne _ _ _ T)) as (m' & -> & Fm). bwd title_fin Fm T r' T' Fr. close r' Fr. exists w, m'. auto.
Qed.
Lemma bare_end : forall d, bare_text d -> forall s, d = s ++ [10%N] -> ends_in (ch "\") s.
Proof.
  intros d H. induction H as [|c s H IH|c s B H IH|a s Ha _ H IH]; intros x E.
  - now destruct x.
  - destruct x as [|y x]; [discriminate|]. injection E as <- E. destruct x as [|z x].
    + injection E as -> ->. now exists [].
    + injection E as <- E. destruct (IH _ E) as (u & ->). now exists (ch "\" :: c :: u).
  - destruct x as [|y x]; [injection E as -> ->; discriminate|]. injection E as <- E. destruct (IH _ E) as (u & ->). now exists (c :: u).
  - change (ch "(" :: a ++ ch ")" :: s) with ((ch "(" :: a) ++ [ch ")"] ++ s) in E. rewrite app_assoc in E. symmetry in E. apply snoc_split in E. destruct E as [(m & -> & ->)|[-> E]].
    + destruct (IH _ eq_refl) as (u & ->). exists (((ch "(" :: a) ++ [ch ")"]) ++ u). now rewrite <- !app_assoc.
    + apply app_inj_tail in E. destruct E as [_ E]. discriminate.
Qed.
Lemma stops_fin : forall r r', fin r r' -> (bare_stops r <-> bare_stops r').
Proof.
  intros r r' F. destruct F as [[F ->]|[-> ->]]; [|tauto]. destruct r as [|c r]; cbn [app bare_stops].
  - split; [|trivial]. intros _. split; [reflexivity|]. split; [discriminate|]. intros (a & t & E & _). discriminate.
  - split; intros (B & N & X); (split; [exact B|split; [exact N|]]); intros (a & t & E & T); apply X.
    + change (c :: r ++ [10%N]) with ((c :: r) ++ [10%N]) in E. change (ch "(" :: a ++ ch ")" :: t) with ((ch "(" :: a) ++ [ch ")"] ++ t) in E. rewrite app_assoc in E. apply snoc_split in E.
      destruct E as [(m & -> & E)|[-> E]]; [|apply app_inj_tail in E; destruct E as [_ E]; discriminate]. rewrite <- app_assoc in E. exists a, m. auto.
    + exists a, (t ++ [10%N]). split; [|exact T]. change (c :: r ++ [10%N]) with ((c :: r) ++ [10%N]). rewrite E. cbn [app]. now rewrite <- app_assoc.
Qed.
Lemma destination_fin : defs = true -> insensitive destination_at.
Proof.
  intros D s s' F d. split; intros r H; inversion H as [raw d0 r0 A|d0 r0 N B S|d0 B]; subst.
  - rewrite !app_assoc in F. off F r' Fr. close r' Fr. rewrite <- !app_assoc. now constructor.
  - off F r' Fr. close r' Fr. constructor; try assumption. now rewrite <- (stops_fin _ _ Fr).
  - exfalso. destruct F as [[F _]|[F _]]; [|apply app_eq_nil in F; destruct F; discriminate]. apply (proj2 F D). now exists d0.
  - rewrite (app_assoc _ raw) in F. destruct (back_ne _ _ _ F ltac:(discriminate)) as (a & -> & Fa). assert (Ng : ~ In 10%N (lit ">")) by (intros [J|[]]; discriminate J). back Fa Ng r' Fr. close r' Fr. rewrite <- !app_assoc. now constructor.
  - destruct F as [[F E]|[-> E]]; [|apply app_eq_nil in E; tauto]. symmetry in E. apply snoc_split in E. destruct E as [(m & -> & ->)|[-> E]].
    + assert (Fr : fin m (m ++ [10%N])) by (left; split; [now apply fair_suffix in F|reflexivity]). close m Fr. constructor; try assumption. now rewrite (stops_fin _ _ Fr).
    + exfalso. apply (proj2 F D). exact (bare_end _ B _ E).
  - exfalso. destruct F as [[F E]|[-> E]]; [|apply app_eq_nil in E; destruct E; discriminate]. apply app_inj_tail in E. destruct E as [_ E]. discriminate.
Qed.
Lemma dest_ne : forall m d r, destination_at m d r -> m <> [].
Proof. intros m d r H. inversion H; subst; intro E; apply app_eq_nil in E; destruct E as [E1 E2]; try discriminate; tauto. Qed.
Lemma definition_fin : defs = true -> insensitive r_definition.
Proof.
  intros D s s' F x. split; intros r H; inversion H as [k y label w m d m1 t m2 r0 L Bk G Ds T E]; subst; destruct (bracket_prefix _ _ _ Bk) as (p & -> & P).
  - off F a Fa. off Fa b Fb. destruct (fin_off1 _ _ _ Fb) as (c & -> & Fc). off Fc m' Fm. fwd (destination_fin D) Fm Ds m1' Ds' F1.
    assert (X : exists m2', ((exists x, t = Some x /\ definition_title m1' x m2') \/ (t = None /\ m2' = m1' /\ ~ applies definition_title m1')) /\ fin m2 m2').
    { destruct T as [(x & -> & T)|(-> & -> & T)]; [fwd def_title_fin F1 T m2' T' F2; exists m2'; split; [left; eauto|exact F2]|].
      exists m1'. split; [|exact F1]. right. rewrite <- (applies_fin _ _ _ _ def_title_fin F1). auto. }
    destruct X as (m2' & X & F2). endf end_fin F2 E r' E' Fr. close r' Fr. apply (R_definition k _ label w m' d m1' t m2' r'); try assumption. apply P.
  - back F (rep_free k c_sp ltac:(discriminate)) a Fa. destruct (back_ne _ _ _ Fa ltac:(discriminate)) as (b & -> & Fb). back1 Fb c Fc. destruct (back_ne _ _ _ Fc (dest_ne _ _ _ Ds)) as (m' & -> & Fm). bwd (destination_fin D) Fm Ds m1' Ds' F1.
    assert (X : exists m2', ((exists x, t = Some x /\ definition_title m1' x m2') \/ (t = None /\ m2' = m1' /\ ~ applies definition_title m1')) /\ fin m2' m2).
    { destruct T as [(x & -> & T)|(-> & -> & T)]; [bwd def_title_fin F1 T m2' T' F2; exists m2'; split; [left; eauto|exact F2]|].
      exists m1'. split; [|exact F1]. right. rewrite (applies_fin _ _ _ _ def_title_fin F1). auto. }
    destruct X as (m2' & X & F2). endb end_fin F2 E r' E' Fr. close r' Fr. apply (R_definition k _ label w m' d m1' t m2' r'); try assumption. apply P.
Qed.
(** ** Tables *)
Lemma stop_fin : forall s s', fin s s' -> (begins_with (ch "|") s \/ (exists r, line_end s r)) -> begins_with (ch "|") s' \/ (exists r, line_end s' r).
Proof. intros s s' F [H|H]; [left; now apply (begins_fin (ch "|") _ _ ltac:(discriminate) F)|right; now apply (line_end_fin _ _ F)]. Qed.
Lemma stop_back : forall s s', fin s s' -> (begins_with (ch "|") s' \/ (exists r, line_end s' r)) -> begins_with (ch "|") s \/ (exists r, line_end s r).
Proof. intros s s' F [H|H]; [left; now apply (begins_fin (ch "|") _ _ ltac:(discriminate) F)|right; now apply (line_end_fin _ _ F)]. Qed.
Lemma cell_text_fin : insensitive cell_text.
Proof.
  intros s s' F t. split; intros r H.
  - revert s' F. induction H as [s E|s t r _ IH|c s t r N1 N2 N3 H IH]; intros s' F.
    + exists s'. split; [|exact F]. apply cell_stop. now apply (stop_fin s).
    + destruct (fin_off1 _ _ _ F) as (a & -> & Fa). destruct (fin_off1 _ _ _ Fa) as (b & -> & Fb). destruct (IH _ Fb) as (r' & E & Fr). close r' Fr. now constructor.
    + destruct (fin_off1 _ _ _ F) as (a & -> & Fa). destruct (IH _ Fa) as (r' & E & Fr). close r' Fr. constructor; try assumption.
      * intros y Y. destruct (proj2 (line_end_fin _ _ F)) as (z & Z); [eauto|]. exact (N2 _ Z).
      * intros [-> Y]. apply N3. split; [reflexivity|]. now apply (begins_fin (ch "|") _ _ ltac:(discriminate) Fa).
  - revert s F. induction H as [s' E|s' t r _ IH|c s' t r N1 N2 N3 H IH]; intros s F.
    + exists s. split; [|exact F]. apply cell_stop. now apply (stop_back s s').
    + back1 F a Fa. back1 Fa b Fb. destruct (IH _ Fb) as (r' & E & Fr). close r' Fr. now constructor.
    + assert (Nc : c <> 10%N). { intros ->. apply (N2 s'). apply (end_eol [10%N] s'). now left. }
      destruct (fin_back1 _ _ _ Nc F) as (a & -> & Fa). destruct (IH _ Fa) as (r' & E & Fr). close r' Fr. constructor; try assumption.
      * intros y Y. destruct (proj1 (line_end_fin _ _ F)) as (z & Z); [eauto|]. exact (N2 _ Z).
      * intros [-> Y]. apply N3. split; [reflexivity|]. now apply (begins_fin (ch "|") _ _ ltac:(discriminate) Fa).
Qed.
Lemma cell_fin : insensitive cell_at.
Proof.
  intros s s' F t. split; intros r [N E]; [fwd cell_text_fin F E r' E' Fr|bwd cell_text_fin F E r' E' Fr]; close r' Fr; now split.
Qed.
Lemma align_prefix : prefix_rule align_at.
Proof.
  intros s a r (w & n & w' & L & W & W' & H).
    assert (Fr : forall x, ~ In 10%N x -> ~ In 10%N (w ++ x ++ w')).
    { intros x Nx J. apply in_app_or in J. destruct J as [J|J]; [now apply (spaces_free w W)|]. apply in_app_or in J. destruct J as [J|J]; [tauto|now apply (spaces_free w' W')]. }
    pose proof (rep_free n (ch "-") ltac:(discriminate)) as R.
    destruct H as [[-> ->]|[[-> ->]|[[-> ->]|[-> ->]]]].
    - exists (w ++ (lit ":" ++ rep n (ch "-")) ++ w'). rewrite <- !app_assoc. split; [reflexivity|]. split; [rewrite (app_assoc (lit ":")); apply Fr; intro J; apply in_app_or in J; destruct J as [[J|[]]|J]; [discriminate|tauto]|].
      intros r'. exists w, n, w'. rewrite <- !app_assoc. repeat (split; [assumption|]). now left.
    - exists (w ++ (rep n (ch "-") ++ lit ":") ++ w'). rewrite <- !app_assoc. split; [reflexivity|]. split; [rewrite (app_assoc (rep n (ch "-"))); apply Fr; intro J; apply in_app_or in J; destruct J as [J|[J|[]]]; [tauto|discriminate]|].
      intros r'. exists w, n, w'. rewrite <- !app_assoc. repeat (split; [assumption|]). right. now left.
    - exists (w ++ (lit ":" ++ rep n (ch "-") ++ lit ":") ++ w'). rewrite <- !app_assoc. split; [reflexivity|]. split.
      { rewrite (app_assoc (rep n (ch "-"))), (app_assoc (lit ":")). apply Fr. intro J. apply in_app_or in J. destruct J as [[J|[]]|J]; [discriminate|]. apply in_app_or in J. destruct J as [J|[J|[]]]; [tauto|discriminate]. }
      intros r'. exists w, n, w'. rewrite <- !app_assoc. repeat (split; [assumption|]). do 2 right. now left.
    - exists (w ++ rep n (ch "-") ++ w'). rewrite <- !app_assoc. split; [reflexivity|]. split; [now apply Fr|].
      intros r'. exists w, n, w'. rewrite <- !app_assoc. repeat (split; [assumption|]). do 3 right. now split.
Qed.
Lemma align_fin : insensitive align_at.
Proof. apply prefix_fin, align_prefix. Qed.
Lemma cells_fin : forall A (cell : rule A), insensitive cell -> insensitive (cells cell).
Proof.
  intros A cell H s s' F l. split; intros r E.
  - revert s' F. induction E as [s x m m1 r C M L|s x m l r C _ IH]; intros s' F.
    + fwd H F C m' C' Fm. destruct M as [<-|M].
      * endf end_fin Fm L r' L' Fr. close r' Fr. now apply (cells_last cell s' x m' m' r'); [|left|].
      * subst m. destruct (fin_off1 _ _ _ Fm) as (a & -> & Fa). endf end_fin Fa L r' L' Fr. close r' Fr. now apply (cells_last cell s' x (ch "|" :: a) a r'); [|right|].
    + fwd H F C m' C' Fm. destruct (fin_off1 _ _ _ Fm) as (a & -> & Fa). destruct (IH _ Fa) as (r' & E' & Fr). close r' Fr. now apply (cells_more cell s' x a).
  - revert s F. induction E as [s' x m m1 r C M L|s' x m l r C _ IH]; intros s F.
    + bwd H F C m' C' Fm. destruct M as [<-|M].
      * endb end_fin Fm L r' L' Fr. close r' Fr. now apply (cells_last cell s x m' m' r'); [|left|].
      * subst m. back1 Fm a Fa. endb end_fin Fa L r' L' Fr. close r' Fr. now apply (cells_last cell s x (ch "|" :: a) a r'); [|right|].
    + bwd H F C m' C' Fm. back1 Fm a Fa. destruct (IH _ Fa) as (r' & E' & Fr). close r' Fr. now apply (cells_more cell s x a).
Qed.
Lemma row_fin : forall A (cell : rule A), insensitive cell -> insensitive (row cell).
Proof.
  intros A cell H s s' F l. split; intros r (k & m & -> & L & E).
  - off F a Fa. destruct (fin_off1 _ _ _ Fa) as (m' & -> & Fm). fwd (cells_fin _ _ H) Fm E r' E' Fr. close r' Fr. exists k, m'. auto.
  - back F (rep_free k c_sp ltac:(discriminate)) a Fa. back1 Fa m' Fm. bwd (cells_fin _ _ H) Fm E r' E' Fr. close r' Fr. exists k, m'. auto.
Qed.
Lemma table_fin : insensitive r_table.
Proof.
  intros s s' F x. split; intros r H; inversion H as [s0 header m1 al m2 rows r0 R1 R2 L R3]; subst.
  - fwd (row_fin _ _ cell_fin) F R1 m1' R1' F1. fwd (row_fin _ _ align_fin) F1 R2 m2' R2' F2. fwd (repeated_fin _ _ (row_fin _ _ cell_fin)) F2 R3 r' R3' Fr. close r' Fr. now apply (R_table s' header m1' al m2').
  - bwd (row_fin _ _ cell_fin) F R1 m1' R1' F1. bwd (row_fin _ _ align_fin) F1 R2 m2' R2' F2. bwd (repeated_fin _ _ (row_fin _ _ cell_fin)) F2 R3 r' R3' Fr. close r' Fr. now apply (R_table s header m1' al m2').
Qed.


(** ** The rest begins a line *)
Definition tail (s r : str) : Prop := s = r \/ exists t, s = t ++ r /\ (r = [] \/ ends_in 10%N t).
Definition lined {A} (R : rule A) : Prop := forall s x r, R s x r -> tail s r.
Lemma tail_off : forall t m r, (exists u, m = u ++ r /\ (r = [] \/ ends_in 10%N u)) -> tail (t ++ m) r.
Proof. intros t m r (u & -> & H). right. exists (t ++ u). rewrite app_assoc. split; [reflexivity|]. destruct H as [H|(v & ->)]; [now left|right]. exists (t ++ v). now rewrite app_assoc. Qed.
Lemma end_tail : forall m r, line_end m r -> exists u, m = u ++ r /\ (r = [] \/ ends_in 10%N u).
Proof. intros m r H. inversion H as [e r0 [-> | ->]|]; subst; [exists [10%N]|exists [13%N; 10%N]|exists []]; (split; [reflexivity|]); [right; now exists []|right; now exists [13%N]|now left]. Qed.
Lemma tail_trans : forall a b c, tail a b -> tail b c -> tail a c.
Proof.
  intros a b c [->|(t & -> & H)] [E|(u & -> & K)]; [now left|right; eauto|subst; right; eauto|]. right. exists (t ++ u). rewrite app_assoc. split; [reflexivity|]. destruct K as [K|(v & ->)]; [now left|right]. exists (t ++ v). now rewrite app_assoc.
Qed.
Lemma tail_pre : forall t m r, tail m r -> ~ tail (t ++ m) r -> m = r.
Proof. intros t m r [H|H] N; [exact H|]. elim N. now apply tail_off. Qed.
Lemma repeated_lined : forall A (R : rule A), lined R -> lined (repeated R).
Proof. intros A R H s l r E. induction E as [s N|s a m l r E _ IH]; [now left|]. exact (tail_trans _ _ _ (H _ _ _ E) IH). Qed.
Lemma first_lined : forall A (l : list (rule A)), Forall lined l -> lined (first_of l).
Proof. intros A l H. induction H as [|R l H _ IH]; intros s x r; [intros []|]. cbn [first_of]. intros [E|[_ E]]; [exact (H _ _ _ E)|exact (IH _ _ _ E)]. Qed.
Lemma on_lined : forall A B (b : behavior B) (R : rule A), lined R -> lined (on b R).
Proof. intros A B b R H s x r [_ E]. exact (H _ _ _ E). Qed.
(** strictly: the rest begins a new line *)
Definition strict {A} (R : rule A) : Prop := forall s x r, R s x r -> exists u, s = u ++ r /\ (r = [] \/ ends_in 10%N u).
Lemma strict_lined : forall A (R : rule A), strict R -> lined R.
Proof. intros A R H s x r E. right. exact (H _ _ _ E). Qed.
Lemma strict_off : forall t m r, (exists u, m = u ++ r /\ (r = [] \/ ends_in 10%N u)) -> exists u, t ++ m = u ++ r /\ (r = [] \/ ends_in 10%N u).
Proof. intros t m r (u & -> & H). exists (t ++ u). rewrite app_assoc. split; [reflexivity|]. destruct H as [H|(v & ->)]; [now left|right]. exists (t ++ v). now rewrite app_assoc. Qed.
Lemma strict_trans : forall s m r, (exists u, s = u ++ m /\ (m = [] \/ ends_in 10%N u)) -> tail m r -> exists u, s = u ++ r /\ (r = [] \/ ends_in 10%N u).
Proof. intros s m r (u & -> & H) [<-|(v & -> & K)]; [eauto|]. apply strict_off. eauto. Qed.
Lemma plain_strict : strict plain_line.
Proof. intros s v r (m & -> & _ & _ & E). now apply strict_off, end_tail. Qed.
Lemma text_strict : strict text_line.
Proof. intros s v r (m & -> & _ & _ & E & _). now apply strict_off, end_tail. Qed.
Lemma code_line_strict : strict code_line.
Proof. intros s v r (m & [-> | ->] & E); [|change (c_tab :: m) with ([c_tab] ++ m)]; apply strict_off; exact (plain_strict _ _ _ E). Qed.
Lemma strip_strict : forall k s m r, strip k s m -> (exists u, m = u ++ r /\ (r = [] \/ ends_in 10%N u)) -> exists u, s = u ++ r /\ (r = [] \/ ends_in 10%N u).
Proof. intros k s m r (j & -> & _) H. now apply strict_off. Qed.
Lemma fenced_line_strict : forall k f n, strict (fenced_line k f n).
Proof. intros k f n s v r (_ & m & M & E). apply (strip_strict _ _ _ _ M). exact (plain_strict _ _ _ E). Qed.
Lemma fenced_strict : strict r_fenced.
Proof.
  intros s v r E. inversion E as [k f n m info m1 ls m2 r0 L1 If L2 B Hi Hr He E1 E2 E3]; subst. do 2 apply strict_off. apply (strict_trans _ m1).
  - destruct Hi as [[_ H]|(x & _ & H)]; [now apply end_tail|exact (text_strict _ _ _ H)].
  - apply (tail_trans _ m2); [exact (repeated_lined _ _ (strict_lined _ _ (fenced_line_strict k f n)) _ _ _ Hr)|]. destruct He as (a & b & m3 & -> & _ & _ & H). right. do 2 apply strict_off. now apply end_tail.
Qed.
Lemma code_lined : lined r_code_block.
Proof. intros s v r E. inversion E as [s0 ls r0 N R|s0 h r0 R]; subst; [exact (repeated_lined _ _ (strict_lined _ _ code_line_strict) _ _ _ R)|right; exact (fenced_strict _ _ _ R)]. Qed.
Lemma atx_lined : forall b, lined (r_atx b).
Proof. intros b s v r E. inversion E; subst. right. do 2 apply strict_off. eapply text_strict. eassumption. Qed.
Lemma underline_strict : strict underline.
Proof. intros s v r (k & c & n & w & m & -> & _ & _ & _ & _ & E). do 3 apply strict_off. now apply end_tail. Qed.
Lemma break_lined : lined r_break_line.
Proof. intros s v r E. inversion E; subst. right. do 3 apply strict_off. now apply end_tail. Qed.
Lemma quote_line_strict : strict quote_line.
Proof. intros s v r (k & m & -> & _ & E). change (ch ">" :: m) with ([ch ">"] ++ m). do 2 apply strict_off. exact (plain_strict _ _ _ E). Qed.
Lemma quote_lined : lined r_quote.
Proof. intros s v r E. inversion E; subst. eapply (repeated_lined _ _ (strict_lined _ _ quote_line_strict)). eassumption. Qed.
Lemma alert_lined : forall u, lined (r_alert u).
Proof. intros u s v r E. inversion E; subst. eapply (repeated_lined _ _ (strict_lined _ _ quote_line_strict)). eassumption. Qed.
Lemma blank_strict : strict blank_line.
Proof. intros s v r (_ & w & m & -> & _ & E). apply strict_off. now apply end_tail. Qed.
Lemma start_strict : strict item_start.
Proof.
  intros s x r H. cbn [item_start first_of] in H. destruct H as [H|[_ [H|[_ [H|[_ []]]]]]]; inversion H; subst; match goal with M : marker_at _ _ _ |- _ => destruct (marker_prefix _ _ _ M) as (p & -> & _) end; do 3 apply strict_off.
  - now apply end_tail.
  - match goal with T : task_at _ _ _ |- _ => destruct (task_prefix _ _ _ T) as (q & -> & _) end. apply strict_off. now apply end_tail.
  - match goal with P : plain_line _ _ _ |- _ => apply plain_strict in P; rename P into Q end. match goal with T : (exists _, _) \/ _ |- _ => destruct T as [(y & _ & T0)|(_ & -> & _)] end.
    + destruct (task_prefix _ _ _ T0) as (q & -> & _). change (c_sp :: m) with ([c_sp] ++ m). now do 2 apply strict_off.
    + exact Q.
Qed.
Lemma item_line_strict : forall k n, strict (item_line k n).
Proof.
  intros k n s v r (_ & _ & H). cbn [first_of] in H. destruct H as [(m & M & T)|[_ [(bl & m & v' & N & R & T & _)|[_ []]]]].
  - apply (strip_strict _ _ _ _ M). exact (text_strict _ _ _ T).
  - inversion R as [|s0 a m0 l r0 E R2]; subst; [congruence|]. apply (strict_trans _ m0); [exact (blank_strict _ _ _ E)|].
    apply (tail_trans _ (rep n c_sp ++ m)); [exact (repeated_lined _ _ (strict_lined _ _ blank_strict) _ _ _ R2)|]. right. apply strict_off. exact (text_strict _ _ _ T).
Qed.
Lemma item_lined : lined item_at.
Proof.
  intros s x r H. inversion H as [s0 k n t v m ls r0 S R]; subst. right. apply (strict_trans _ m); [exact (start_strict _ _ _ S)|]. exact (repeated_lined _ _ (strict_lined _ _ (item_line_strict k n)) _ _ _ R).
Qed.
Lemma list_lined : lined r_list.
Proof. intros s x r H. inversion H; subst. eapply (repeated_lined _ _ item_lined). eassumption. Qed.
Lemma footnote_lined : lined r_footnote_def.
Proof.
  intros s x r H. inversion H as [k label m m1 v m2 ls r0 L N1 N2 S T R]; subst. right. do 4 apply strict_off. apply (strict_trans _ m2).
  - apply (strip_strict _ _ _ _ S). exact (text_strict _ _ _ T).
  - refine (repeated_lined _ _ _ _ _ _ R). apply strict_lined. intros y z q (w & -> & W). apply strict_off. exact (text_strict _ _ _ W).
Qed.
Lemma dest_suffix : forall m d r, destination_at m d r -> exists u, m = u ++ r.
Proof. intros m d r H. inversion H; subst; [exists (lit "<" ++ raw ++ lit ">"); now rewrite <- !app_assoc|now exists d|exists (d0 ++ lit "\"); now rewrite app_nil_r]. Qed.
Lemma definition_lined : lined r_definition.
Proof.
  intros s x r H. inversion H as [k y label w m d m1 t m2 r0 L Bk G Ds T E]; subst. right. destruct (bracket_prefix _ _ _ Bk) as (p & -> & _). do 2 apply strict_off.
  change (ch ":" :: w ++ m) with ([ch ":"] ++ w ++ m). do 2 apply strict_off. destruct (dest_suffix _ _ _ Ds) as (u & ->). apply strict_off. apply end_tail in E.
  destruct T as [(z & _ & w' & m' & -> & _ & _ & o & c & raw & _ & _ & ->)|(_ & -> & _)]; [|exact E].
  apply strict_off. change (o :: raw ++ c :: m2) with ((o :: raw) ++ [c] ++ m2). now do 2 apply strict_off.
Qed.
Lemma cell_suffix : forall s t r, cell_at s t r -> exists u, s = u ++ r.
Proof.
  intros s t r [_ H]. induction H as [s _|s t r _ (u & ->)|c s t r _ _ _ _ (u & ->)]; [now exists []|now exists (ch "\" :: ch "|" :: u)|now exists (c :: u)].
Qed.
Lemma align_suffix : forall s t r, align_at s t r -> exists u, s = u ++ r.
Proof.
  intros s t r (w & n & w' & _ & _ & _ & H). destruct H as [[_ ->]|[[_ ->]|[[_ ->]|[_ ->]]]]; rewrite ?app_assoc; eexists; reflexivity.
Qed.
Lemma row_strict : forall A (cell : rule A), (forall s x r, cell s x r -> exists u, s = u ++ r) -> strict (row cell).
Proof.
  intros A cell H s l r (k & m & -> & _ & C). change (ch "|" :: m) with ([ch "|"] ++ m). do 2 apply strict_off. clear k.
  induction C as [s x m m1 r C M E|s x m l r C _ IH]; destruct (H _ _ _ C) as (u & ->); apply strict_off.
  - destruct M as [-> | ->]; [|change (ch "|" :: m1) with ([ch "|"] ++ m1); apply strict_off]; now apply end_tail.
  - change (ch "|" :: m) with ([ch "|"] ++ m). now apply strict_off.
Qed.
Lemma table_lined : lined r_table.
Proof.
  intros s x r H. inversion H as [s0 header m1 al m2 rows r0 R1 R2 L R3]; subst. right. apply (strict_trans _ m1); [exact (row_strict _ _ cell_suffix _ _ _ R1)|].
  apply (tail_trans _ m2); [right; exact (row_strict _ _ align_suffix _ _ _ R2)|]. exact (repeated_lined _ _ (strict_lined _ _ (row_strict _ _ cell_suffix)) _ _ _ R3).
Qed.
(** ** Documents *)
Lemma no_html_tail : forall s r, no_html s -> tail s r -> no_html r.
Proof.
  intros s r H [<-|(t & -> & K)]; [exact H|]. intros u k c v -> U. apply (H (t ++ u) k c v); [now rewrite <- !app_assoc|].
  right. destruct U as [->|(y & ->)].
  - destruct K as [K|K]; [|now rewrite app_nil_r]. cbn [app] in K. apply app_eq_nil in K. destruct K; discriminate.
  - exists (t ++ y). now rewrite app_assoc.
Qed.
Lemma no_html_not : forall s x r, no_html s -> ~ r_html s x r.
Proof.
  intros s x r N H. inversion H as [k m v r0 L E]; subst. destruct (html_tag _ _ _ E) as (c & t & -> & T). apply (N [] k c t eq_refl); [now left|exact T].
Qed.
Lemma no_html_fin : forall s s', fin s s' -> no_html s -> no_html s'.
Proof.
  intros s s' [[_ ->]|[_ ->]] N u k c v E U; [|destruct u; [destruct k; discriminate|discriminate]]. rewrite app_assoc in E. change (ch "<" :: c :: v) with ([ch "<"; c] ++ v) in E. rewrite app_assoc in E. apply snoc_split in E.
  destruct E as [(m & -> & ->)|[_ E]]; [apply (N u k c m); [now rewrite <- !app_assoc|exact U]|].
  change [ch "<"; c] with ([ch "<"] ++ [c]) in E. rewrite app_assoc in E. apply app_inj_tail in E. destruct E as [_ ->]. intros [T|[T|[T|[T|[]]]]]; discriminate.
Qed.
Section Rules.
  Variable cfg : config.
  Hypothesis Hcustom : custom_block cfg = None.
  Hypothesis Hdefs : b_link_definition cfg <> Ignore -> defs = true.
  Definition calm (s : str) : Prop := b_html_block cfg <> Ignore -> no_html s.
  Definition good (s s' : str) : Prop := fin s s' /\ calm s.
  Definition settled {A} (R : rule A) : Prop := forall s s', good s s' -> forall x,
    (forall r, R s x r -> exists r', R s' x r' /\ good r r') /\ (forall r', R s' x r' -> exists r, R s x r /\ good r r').
  Lemma calm_tail : forall s r, calm s -> tail s r -> calm r.
  Proof. intros s r C T O. exact (no_html_tail _ _ (C O) T). Qed.
  Lemma settle : forall A (R : rule A), insensitive R -> lined R -> settled R.
  Proof.
    intros A R H L s s' [F C] x. split; intros r E; [fwd H F E r' E' Fr|bwd H F E r' E' Fr]; exists r'; (split; [exact E'|split; [exact Fr|]]).
    - exact (calm_tail _ _ C (L _ _ _ E)).
    - exact (calm_tail _ _ C (L _ _ _ E')).
  Qed.
  Lemma applies_good : forall A (R : rule A) s s', settled R -> good s s' -> (applies R s <-> applies R s').
  Proof.
    intros A R s s' H F. split; intros (x & r & E); [destruct (proj1 (H _ _ F x) r E) as (r' & ? & _)|destruct (proj2 (H _ _ F x) r E) as (r' & ? & _)]; now exists x, r'.
  Qed.
  Lemma on_settled : forall A B (b : behavior B) (R : rule A), (b <> Ignore -> settled R) -> settled (on b R).
  Proof.
    intros A B b R H s s' F x. unfold on. split; intros r [N E]; [destruct (proj1 (H N _ _ F x) r E) as (r' & ? & ?)|destruct (proj2 (H N _ _ F x) r E) as (r' & ? & ?)]; exists r'; auto.
  Qed.
  Lemma first_settled : forall A (l : list (rule A)), Forall settled l -> settled (first_of l).
  Proof.
    intros A l H. induction H as [|R l H _ IH]; intros s s' F x; [split; intros r []|]. cbn [first_of]. destruct (IH s s' F x) as [I1 I2]. split.
    - intros r [E|[N E]]; [destruct (proj1 (H _ _ F x) r E) as (r' & E' & Fr); exists r'; auto|]. destruct (I1 r E) as (r' & E' & Fr). exists r'. split; [|exact Fr]. right. split; [|exact E']. now rewrite <- (applies_good _ _ _ _ H F).
    - intros r [E|[N E]]; [destruct (proj2 (H _ _ F x) r E) as (r' & E' & Fr); exists r'; auto|]. destruct (I2 r E) as (r' & E' & Fr). exists r'. split; [|exact Fr]. right. split; [|exact E']. now rewrite (applies_good _ _ _ _ H F).
  Qed.
  Lemma repeated_settled : forall A (R : rule A), settled R -> settled (repeated R).
  Proof.
    intros A R H s s' F l. split.
    - intros r E. revert s' F. induction E as [s N|s a m l r E _ IH]; intros s' F.
      + exists s'. split; [|exact F]. constructor. now rewrite <- (applies_good _ _ _ _ H F).
      + destruct (proj1 (H _ _ F a) m E) as (m' & E' & Fm). destruct (IH _ Fm) as (r' & E2 & Fr). exists r'. split; [|exact Fr]. now apply (rep_more R s' a m').
    - intros r' E. revert s F. induction E as [s' N|s' a m' l r' E _ IH]; intros s F.
      + exists s. split; [|exact F]. constructor. now rewrite (applies_good _ _ _ _ H F).
      + destruct (proj2 (H _ _ F a) m' E) as (m & E' & Fm). destruct (IH _ Fm) as (r & E2 & Fr). exists r. split; [|exact Fr]. now apply (rep_more R s a m).
  Qed.
  Lemma html_settled : b_html_block cfg <> Ignore -> settled r_html.
  Proof.
    intros O s s' [F C] x. split; intros r E; exfalso; [exact (no_html_not _ _ _ (C O) E)|exact (no_html_not _ _ _ (no_html_fin _ _ F (C O)) E)].
  Qed.
  Lemma custom_settled : settled (r_custom_block cfg).
  Proof. intros s s' F x. split; intros r H; inversion H; congruence. Qed.
  Lemma fenced_lined : lined r_fenced. Proof. apply strict_lined, fenced_strict. Qed.
  Lemma underline_lined : lined underline. Proof. apply strict_lined, underline_strict. Qed.
  Lemma starter_good : forall s s', good s s' -> (starter cfg s <-> starter cfg s').
  Proof.
    assert (X : forall s s', good s s' -> Forall2 iff
      [ applies (on (b_heading_v1 cfg) (atx cfg)) s; applies (on (b_heading_v2 cfg) underline) s; applies (on (b_thematic_break cfg) r_break_line) s;
        applies (on (b_blockquote cfg) r_quote) s; applies (on (b_list cfg) item_at) s; applies (on (b_code_block cfg) r_fenced) s;
        applies (on (b_html_block cfg) r_html) s; applies (on (b_link_definition cfg) r_definition) s; applies (on (b_footnote_definition cfg) r_footnote_def) s;
        applies (on (b_table cfg) r_table) s; applies (r_custom_block cfg) s; applies blank_line s ]
      [ applies (on (b_heading_v1 cfg) (atx cfg)) s'; applies (on (b_heading_v2 cfg) underline) s'; applies (on (b_thematic_break cfg) r_break_line) s';
        applies (on (b_blockquote cfg) r_quote) s'; applies (on (b_list cfg) item_at) s'; applies (on (b_code_block cfg) r_fenced) s';
        applies (on (b_html_block cfg) r_html) s'; applies (on (b_link_definition cfg) r_definition) s'; applies (on (b_footnote_definition cfg) r_footnote_def) s';
        applies (on (b_table cfg) r_table) s'; applies (r_custom_block cfg) s'; applies blank_line s' ]).
    { intros s s' F. repeat apply Forall2_cons; try apply Forall2_nil; try (apply blank_applies; apply F); try (apply applies_good; [|exact F]); try (apply on_settled; intro On).
      - apply settle; [apply atx_fin|apply atx_lined]. - apply settle; [apply underline_fin|apply underline_lined]. - apply settle; [apply break_fin|apply break_lined].
      - apply settle; [apply quote_fin|apply quote_lined]. - apply settle; [apply item_fin|apply item_lined]. - apply settle; [apply fenced_fin|apply fenced_lined]. - now apply html_settled.
      - apply settle; [apply definition_fin; auto|apply definition_lined]. - apply settle; [apply footnote_fin|apply footnote_lined]. - apply settle; [apply table_fin|apply table_lined]. - apply custom_settled. }
    assert (Y : forall l l', Forall2 iff l l' -> (Exists (fun P : Prop => P) l <-> Exists (fun P : Prop => P) l')).
    { intros l l' H. induction H as [|P Q l l' PQ _ IH]; [tauto|]. rewrite !Exists_cons. tauto. }
    intros s s' F. apply Y. now apply X.
  Qed.
  Lemma paragraph_line_settled : settled (paragraph_line cfg).
  Proof.
    intros s s' F v. split; intros r (N & m & M & T).
    - endf (strip_fin 3) (proj1 F) M m' M' Fm. fwd text_fin Fm T r' T' Fr. exists r'. split; [split; [now rewrite <- (starter_good _ _ F)|eauto]|]. split; [exact Fr|].
      apply (calm_tail s); [apply F|]. right. apply (strip_strict _ _ _ _ M). exact (text_strict _ _ _ T).
    - endb (strip_fin 3) (proj1 F) M m' M' Fm. bwd text_fin Fm T r' T' Fr. exists r'. split; [split; [now rewrite (starter_good _ _ F)|eauto]|]. split; [exact Fr|].
      apply (calm_tail s); [apply F|]. right. apply (strip_strict _ _ _ _ M'). exact (text_strict _ _ _ T').
  Qed.
  Lemma lines_settled : settled (r_lines cfg).
  Proof.
    pose proof (settle _ _ underline_fin underline_lined) as Un.
    intros s s' F x. split; intros r H; inversion H as [s0 ls m l r0 N R U|s0 ls r0 N R U]; subst.
    - fwd (repeated_settled _ _ paragraph_line_settled) F R m' R' Fm. fwd Un Fm U r' U' Fr. close r' Fr. now apply (R_setext cfg s' ls m').
    - fwd (repeated_settled _ _ paragraph_line_settled) F R r' R' Fr. close r' Fr. apply (R_paragraph cfg); [exact N|exact R'|]. now rewrite <- (applies_good _ _ _ _ Un Fr).
    - bwd (repeated_settled _ _ paragraph_line_settled) F R m' R' Fm. bwd Un Fm U r' U' Fr. close r' Fr. now apply (R_setext cfg s ls m').
    - bwd (repeated_settled _ _ paragraph_line_settled) F R r' R' Fr. close r' Fr. apply (R_paragraph cfg); [exact N|exact R'|]. now rewrite (applies_good _ _ _ _ Un Fr).
  Qed.
  Lemma line_fin : insensitive r_line.
  Proof.
    intros s s' F x. split; intros r H; inversion H as [s0 m v r0 M T]; subst.
    - endf (strip_fin 3) F M m' M' Fm. fwd text_fin Fm T r' T' Fr. close r' Fr. now apply (R_line s' m').
    - endb (strip_fin 3) F M m' M' Fm. bwd text_fin Fm T r' T' Fr. close r' Fr. now apply (R_line s m').
  Qed.
  Lemma line_lined : lined r_line.
  Proof. intros s x r H. inversion H as [s0 m v r0 M T]; subst. right. apply (strip_strict _ _ _ _ M). exact (text_strict _ _ _ T). Qed.
  Lemma rules_settled : settled (first_of (block_rules cfg)).
  Proof.
    apply first_settled. unfold block_rules. repeat apply Forall_cons; try apply Forall_nil; try (apply on_settled; intro On).
    - apply settle; [apply code_fin|apply code_lined]. - apply settle; [apply atx_fin|apply atx_lined]. - apply lines_settled. - apply settle; [apply break_fin|apply break_lined].
    - apply settle; [apply alert_fin|apply alert_lined]. - apply settle; [apply quote_fin|apply quote_lined]. - apply settle; [apply list_fin|apply list_lined]. - now apply html_settled.
    - apply settle; [apply footnote_fin|apply footnote_lined]. - apply settle; [apply definition_fin; auto|apply definition_lined]. - apply settle; [apply table_fin|apply table_lined].
    - apply custom_settled. - apply settle; [apply line_fin|apply line_lined].
  Qed.
  Lemma blanks_settled : settled (repeated blank_line).
  Proof. apply settle; [apply blanks_fin|]. apply repeated_lined, strict_lined, blank_strict. Qed.
  Lemma blank_snoc : forall s, blank s -> blank (s ++ [10%N]).
  Proof. intros s H. induction H; cbn [app]; try (constructor; assumption). apply blank_lf, blank_nil. Qed.
  Theorem blocks_fin : forall s bs, blocks cfg s bs -> forall s', good s s' -> blocks cfg s' bs.
  Proof.
    fix IH 3. intros s bs H s' F. destruct H as [s B|s bl m h r o l R E M H].
    - apply Blocks_end. destruct F as [[[_ ->]|[_ ->]] _]; [now apply blank_snoc|apply blank_nil].
    - fwd blanks_settled F R m' R' Fm. fwd rules_settled Fm E r' E' Fr. exact (Blocks_more cfg s' bl m' h r' o l R' E' M (IH _ _ H _ Fr)).
  Qed.
End Rules.
End Final.
