(** Proof of C80: the parser reads LF and CR LF alike. *)
From Coq Require Import String Lia.
From Verif Require Import SpecEol Nom NomFacts ParserInline ParserInlineFacts ParserBlock ParserBlockFacts.
Import ListNotations.
Open Scope list_scope.
Local Notation len := (@List.length _).

(** the second text is the first with some LF replaced by CR LF; no other CR *)
Inductive eol : str -> str -> Prop :=
| eol_nil : eol [] []
| eol_char : forall c s s', c <> 13%N -> eol s s' -> eol (c :: s) (c :: s')
| eol_cr : forall s s', eol s s' -> eol (10%N :: s) (13%N :: 10%N :: s').
Lemma eol_more : forall u s, eol u (10%N :: s) -> eol u (13%N :: 10%N :: s).
Proof. intros u s H. inversion H; subst. now apply eol_cr. Qed.
Lemma eol_unix : forall s, no_lone_cr s -> eol (unix s) s.
Proof.
  unfold no_lone_cr. intro s. induction s as [|c s IH]; intros H; [constructor|].
  cbn [unix] in *. destruct s as [|d s].
  - constructor; [|constructor]. intro X. apply H. left. assumption.
  - destruct (N.eqb_spec c 13) as [->|Nc]; cbn [andb] in *.
    + destruct (N.eqb_spec d 10) as [->|Nd].
      * apply eol_more. exact (IH H).
      * exfalso. apply H. now left.
    + constructor; [assumption|]. apply IH. intro X. apply H. now right.
Qed.
Lemma eol_app : forall a a' b b', eol a a' -> eol b b' -> eol (a ++ b) (a' ++ b').
Proof. intros a a' b b' H K. induction H; cbn [app]; [assumption|constructor; assumption|constructor; assumption]. Qed.
Lemma eol_nil_iff : forall a a', eol a a' -> (a = [] <-> a' = []).
Proof. intros a a' H. destruct H; split; congruence. Qed.
Lemma eol_len : forall a a', eol a a' -> len a <= len a'.
Proof. intros a a' H. induction H; cbn; lia. Qed.
Lemma eol_in : forall a a' c, eol a a' -> In c a' -> c = 13%N \/ In c a.
Proof.
  intros a a' c H. induction H as [|x s s' N H IH|s s' H IH]; cbn [In]; [tauto| |].
  - intros [->|J]; [auto|]. destruct (IH J); auto.
  - intros [<-|[<-|J]]; auto. destruct (IH J); auto.
Qed.
Lemma eol_flat : forall a a', eol a a' -> ~ In 10%N a -> a = a'.
Proof.
  intros a a' H. induction H as [|x s s' N H IH|s s' H IH]; cbn [In]; intros K; [reflexivity| |].
  - f_equal. apply IH. tauto.
  - exfalso. apply K. now left.
Qed.
Lemma eol_refl : forall a, ~ In 13%N a -> eol a a.
Proof. intros a. induction a as [|c a IH]; intros H; constructor; cbn [In] in H; [intro X; apply H; auto|apply IH; tauto]. Qed.
Lemma eol_nocr : forall a a', eol a a' -> ~ In 13%N a.
Proof. intros a a' H. induction H as [|x s s' N H IH|s s' H IH]; cbn [In]; intros J; [assumption| |]. - destruct J as [->|J]; auto. - destruct J as [J|J]; [discriminate|auto]. Qed.
(** adjacency of ordinary characters *)
Lemma eol_pair : forall a a', eol a a' -> has_colon_after_bracket a' -> has_colon_after_bracket a.
Proof.
  intros a a' H. induction H as [|x s s' N H IH|s s' H IH]; intros (u & v & E).
  - destruct u; discriminate E.
  - destruct u as [|y u]; cbn in E.
    + injection E as -> E. subst s'. inversion H; subst. exists [], s0. reflexivity.
    + injection E as -> E. destruct IH as (u1 & v1 & ->); [now exists u, v|]. now exists (y :: u1), v1.
  - destruct u as [|y u]; cbn in E; [discriminate E|]. injection E as <- E. destruct u as [|y u]; cbn in E; [discriminate E|]. injection E as <- E.
    destruct IH as (u1 & v1 & ->); [now exists u, v|]. now exists (10%N :: u1), v1.
Qed.

(** no tag is opened by a blank *)
Definition tag_start (c : char) : Prop := is_alpha c = true \/ In c (lit "/!?").
Lemma tag_start_not : forall c, In c [32; 9; 10; 13; 60; 93; 58]%N -> ~ tag_start c.
Proof. intros c I [A|A]; repeat destruct I as [<-|I]; try contradiction; try discriminate A; cbn in A; repeat destruct A as [A|A]; try discriminate A; exact A. Qed.
Lemma eol_tag : forall a a', eol a a' -> opens_tag a' -> opens_tag a.
Proof.
  intros a a' H. induction H as [|x s s' N H IH|s s' H IH]; intros (u & c & v & E & P).
  - destruct u; discriminate E.
  - destruct u as [|y u]; cbn in E.
    + injection E as -> E. subst s'. inversion H; subst; [exists [], c, s0; now split|]. exfalso. apply (tag_start_not 13%N); [cbn; tauto|exact P].
    + injection E as -> E. destruct IH as (u1 & c1 & v1 & -> & P1); [now exists u, c, v|]. now exists (y :: u1), c1, v1.
  - destruct u as [|y u]; cbn in E; [discriminate E|]. injection E as <- E. destruct u as [|y u]; cbn in E; [discriminate E|]. injection E as <- E.
    destruct IH as (u1 & c1 & v1 & -> & P1); [now exists u, c, v|]. now exists (10%N :: u1), c1, v1.
Qed.
Lemma tag_eol : forall a a', eol a a' -> opens_tag a -> opens_tag a'.
Proof.
  intros a a' H. induction H as [|x s s' N H IH|s s' H IH]; intros (u & c & v & E & P).
  - destruct u; discriminate E.
  - destruct u as [|y u]; cbn in E.
    + injection E as -> E. subst s. inversion H; subst; [exists [], c, s'0; now split|]. exfalso. apply (tag_start_not 10%N); [cbn; tauto|exact P].
    + injection E as -> E. destruct IH as (u1 & c1 & v1 & -> & P1); [now exists u, c, v|]. now exists (y :: u1), c1, v1.
  - destruct u as [|y u]; cbn in E; [discriminate E|]. injection E as <- E. destruct IH as (u1 & c1 & v1 & -> & P1); [now exists u, c, v|]. now exists (13%N :: 10%N :: u1), c1, v1.
Qed.
Lemma tag_bridge : forall w a b, (forall c, In c w -> ~ tag_start c /\ c <> ch "<") -> w <> [] -> ~ opens_tag a -> ~ opens_tag b -> ~ opens_tag (a ++ w ++ b).
Proof.
  intros w a b W N A B (u & c & v & E & P). revert u E. induction a as [|x a IH]; intros u E.
  - clear A. cbn [app] in E. revert u E W. clear N. induction w as [|y w IH]; intros u E W; cbn [app] in E.
    + apply B. now exists u, c, v.
    + destruct u as [|z u]; cbn in E; injection E as E1 E2; [specialize (W y (or_introl eq_refl)); subst y; now apply W|].
      apply (IH u E2). intros d J. apply W. now right.
  - destruct u as [|z u]; cbn [app] in E.
    + injection E as E1 E2. destruct a as [|y a].
      * destruct w as [|y w]; [easy|]. cbn in E2. injection E2 as E2 _. specialize (W y (or_introl eq_refl)). subst y. now apply W.
      * cbn in E2. injection E2 as E2 E3. subst. apply A. now exists [], c, a.
    + injection E as E1 E2. apply IH with (u := u); [|exact E2]. intros (u1 & c1 & v1 & -> & P1). apply A. now exists (x :: u1), c1, v1.
Qed.

Section Eol.
  Variables html_on defs_on : Prop.
  Definition fine (s : str) : Prop := (html_on -> ~ opens_tag s) /\ (defs_on -> ~ has_colon_after_bracket s).
  Lemma fine_r : forall t r, fine (t ++ r) -> fine r.
  Proof.
    intros t r [H K]. split; intro X.
    - intros (a & c & b & -> & P). apply (H X). exists (t ++ a), c, b. now rewrite <- app_assoc.
    - intros (a & b & ->). apply (K X). exists (t ++ a), b. now rewrite <- app_assoc.
  Qed.
  Lemma fine_l : forall t r, fine (t ++ r) -> fine t.
  Proof.
    intros t r [H K]. split; intro X.
    - intros (a & c & b & -> & P). apply (H X). exists a, c, (b ++ r). now rewrite <- app_assoc.
    - intros (a & b & ->). apply (K X). exists a, (b ++ r). now rewrite <- !app_assoc.
  Qed.
  Lemma fine_nil : fine [].
  Proof. split; intro; [intros (a & c & b & E & _); destruct a; discriminate E|]. intros (a & b & E). destruct a; discriminate E. Qed.
  (** a bridge that is no bracket *)
  Lemma fine_bridge : forall w a b, (forall c, In c w -> c <> ch "]" /\ c <> ch ":" /\ c <> ch "<" /\ ~ tag_start c) -> w <> [] -> fine a -> fine b -> fine (a ++ w ++ b).
  Proof.
    intros w a b W N [A1 A2] [B1 B2]. split; intro X.
    - apply tag_bridge; auto. intros c I. destruct (W c I) as (_ & _ & W1 & W2). now split.
    - intros (u & v & E). specialize (A2 X). specialize (B2 X). clear A1 B1 X.
      revert u E. induction a as [|x a IH]; intros u E.
      + clear A2. cbn [app] in E. revert u E W. clear N. induction w as [|y w IH]; intros u E W; cbn [app] in E.
        * apply B2. now exists u, v.
        * destruct u as [|z u]; cbn in E; injection E as E1 E2; [specialize (W y (or_introl eq_refl)); subst y; now apply W|].
          apply (IH u E2). intros c J. apply W. now right.
      + destruct u as [|z u]; cbn [app lit] in E.
        * injection E as E1 E2. destruct a as [|y a].
          -- destruct w as [|y w]; [easy|]. cbn in E2. injection E2 as E2 _. specialize (W y (or_introl eq_refl)). now apply W.
          -- cbn in E2. injection E2 as E2 E3. subst. apply A2. now exists [], a.
        * injection E as E1 E2. apply (IH) with (u := u); [|exact E2]. intros (u1 & v1 & ->). apply A2. now exists (x :: u1), v1.
  Qed.

  (** [k]: no line ending is consumed *)
  Definition moved (k : bool) (s s' r r' : str) : Prop :=
    exists t t', s = t ++ r /\ s' = t' ++ r' /\ eol t t' /\ eol r r' /\ (k = true -> t = t' /\ ~ In 10%N t).
  Definition same {A B} (k : bool) (R : A -> B -> Prop) (s s' : str) (x : res A) (y : res B) : Prop :=
    match x, y with
    | Ok r a, Ok r' b => R a b /\ moved k s s' r r'
    | Err, Err | Oof, Oof => True
    | _, _ => False
    end.
  Definition sim {A B} (k : bool) (R : A -> B -> Prop) (p : parser A) (q : parser B) : Prop :=
    forall s s', eol s s' -> fine s -> same k R s s' (p s) (q s').
  Definition T (a b : str) : Prop := eol a b /\ fine a.

  Lemma moved_refl : forall k s s', eol s s' -> moved k s s' s s'.
  Proof. intros k s s' H. exists [], []. repeat split; [constructor|assumption|intros []]. Qed.
  Lemma moved_trans : forall k s s' m m' r r', moved k s s' m m' -> moved k m m' r r' -> moved k s s' r r'.
  Proof.
    intros k s s' m m' r r' (t & t' & -> & -> & E1 & E2 & K) (u & u' & -> & -> & E3 & E4 & K'). exists (t ++ u), (t' ++ u').
    rewrite <- !app_assoc. split; [reflexivity|]. split; [reflexivity|]. split; [now apply eol_app|]. split; [assumption|]. intro X. destruct (K X) as [-> N], (K' X) as [-> N']. split; [reflexivity|]. rewrite in_app_iff. tauto.
  Qed.
  Lemma moved_fine : forall k s s' r r', moved k s s' r r' -> fine s -> eol r r' /\ fine r.
  Proof. intros k s s' r r' (t & t' & -> & _ & _ & E & _) F. split; [assumption|]. now apply fine_r in F. Qed.
  Lemma moved_len : forall k s s' r r', moved k s s' r r' -> (len r =? len s) = (len r' =? len s').
  Proof.
    intros k s s' r r' (t & t' & -> & -> & E & _ & _). rewrite !app_length. apply eol_nil_iff in E.
    destruct t as [|x t]; [rewrite (proj1 E eq_refl); cbn; now rewrite !Nat.eqb_refl|].
    destruct t' as [|x' t']; [now specialize (proj2 E eq_refl)|]. cbn [List.length].
    destruct (Nat.eqb_spec (len r) (S (len t) + len r)); [lia|]. destruct (Nat.eqb_spec (len r') (S (len t') + len r')); [lia|reflexivity].
  Qed.
  Lemma same_trans : forall A B k (R : A -> B -> Prop) s s' m m' x y, moved k s s' m m' -> same k R m m' x y -> same k R s s' x y.
  Proof.
    intros A B k R s s' m m' x y M H. unfold same in *. destruct x, y; try assumption. destruct H as [H H']. split; [assumption|]. eapply moved_trans; eassumption.
  Qed.

  Lemma sim_weaken : forall A B k (R R' : A -> B -> Prop) p q, sim k R p q -> (forall a b, R a b -> R' a b) -> sim k R' p q.
  Proof.
    intros A B k R R' p q H W s s' E F. specialize (H s s' E F). unfold same in *. destruct (p s), (q s'); try assumption. destruct H. split; auto.
  Qed.
  Lemma sim_loose : forall A B k (R : A -> B -> Prop) p q, sim true R p q -> sim k R p q.
  Proof.
    intros A B k R p q H s s' E F. specialize (H s s' E F). unfold same in *. destruct (p s), (q s'); try assumption. destruct H as (H & t & t' & H'). split; [assumption|].
    exists t, t'. destruct H' as (A1 & A2 & A3 & A4 & A5). split; [assumption|]. split; [assumption|]. split; [assumption|]. split; auto.
  Qed.
  Lemma sim_ret : forall A B k (R : A -> B -> Prop) a b, R a b -> sim k R (ret a) (ret b).
  Proof. intros A B k R a b H s s' E F. split; [assumption|now apply moved_refl]. Qed.
  Lemma sim_fail : forall A B k (R : A -> B -> Prop), sim k R fail fail.
  Proof. intros A B k R s s' E F. exact I. Qed.
  Lemma sim_bind : forall A A' B B' k (Q : A -> A' -> Prop) (R : B -> B' -> Prop) p p' f f',
    sim k Q p p' -> (forall a b, Q a b -> sim k R (f a) (f' b)) -> sim k R (bind p f) (bind p' f').
  Proof.
    intros A A' B B' k Q R p p' f f' H K s s' E F. specialize (H s s' E F). unfold bind. unfold same in H at 1.
    destruct (p s) as [r a| |], (p' s') as [r' b| |]; try contradiction; try exact I. destruct H as [H M].
    destruct (moved_fine _ _ _ _ _ M F) as [E' F']. eapply same_trans; [exact M|]. now apply K.
  Qed.
  Lemma sim_pmap : forall A A' B B' k (Q : A -> A' -> Prop) (R : B -> B' -> Prop) p p' f f',
    sim k Q p p' -> (forall a b, Q a b -> R (f a) (f' b)) -> sim k R (pmap f p) (pmap f' p').
  Proof. intros. eapply sim_bind; [eassumption|]. intros. apply sim_ret. auto. Qed.
  Lemma sim_value : forall A A' B B' k (Q : A -> A' -> Prop) (R : B -> B' -> Prop) p p' v v', sim k Q p p' -> R v v' -> sim k R (value v p) (value v' p').
  Proof. intros. eapply sim_pmap; [eassumption|auto]. Qed.
  Lemma sim_unit : forall A A' k (Q : A -> A' -> Prop) p p', sim k Q p p' -> sim k eq (p_unit p) (p_unit p').
  Proof. intros. eapply sim_value; [eassumption|reflexivity]. Qed.
  Lemma sim_opt : forall A k (p q : parser A), sim k eq p q -> sim k eq (opt p) (opt q).
  Proof.
    intros A k p q H s s' E F. specialize (H s s' E F). unfold opt, same in *. destruct (p s), (q s'); try contradiction; try exact I.
    - destruct H as [-> H]. split; [reflexivity|assumption].
    - split; [reflexivity|now apply moved_refl].
  Qed.
  Lemma sim_not : forall A A' k k' (Q : A -> A' -> Prop) p q, sim k' Q p q -> sim k eq (not_ p) (not_ q).
  Proof.
    intros A A' k k' Q p q H s s' E F. specialize (H s s' E F). unfold not_, same in *. destruct (p s), (q s'); try contradiction; try exact I.
    split; [reflexivity|now apply moved_refl].
  Qed.
  Lemma sim_peek : forall A B k k' (R : A -> B -> Prop) p q, sim k' R p q -> sim k R (peek p) (peek q).
  Proof.
    intros A B k k' R p q H s s' E F. specialize (H s s' E F). unfold peek, same in *. destruct (p s), (q s'); try contradiction; try exact I.
    destruct H. split; [assumption|now apply moved_refl].
  Qed.
  Lemma sim_verify : forall A k (p q : parser A) f, sim k eq p q -> sim k eq (verify p f) (verify q f).
  Proof. intros A k p q f H. eapply sim_bind; [exact H|]. intros a b ->. destruct (f b); [now apply sim_ret|apply sim_fail]. Qed.
  Lemma moved_rec : forall k s s' r r', moved k s s' r r' -> fine s ->
    T (firstn (len s - len r) s) (firstn (len s' - len r') s') /\ (k = true -> firstn (len s - len r) s = firstn (len s' - len r') s' /\ ~ In 10%N (firstn (len s - len r) s)).
  Proof.
    intros k s s' r r' (t & t' & -> & -> & E & E' & K) F. rewrite !app_length.
    replace (len t + len r - len r) with (len t) by lia. replace (len t' + len r' - len r') with (len t') by lia.
    rewrite !firstn_app, !Nat.sub_diag, !firstn_all, !firstn_O, !app_nil_r. split; [|assumption]. split; [assumption|]. now apply fine_l in F.
  Qed.
  Lemma sim_recognize : forall A A' (Q : A -> A' -> Prop) p q, sim false Q p q -> sim false T (recognize p) (recognize q).
  Proof.
    intros A A' Q p q H s s' E F. specialize (H s s' E F). unfold recognize, same in *. destruct (p s), (q s'); try contradiction; try exact I.
    destruct H as [_ M]. split; [|assumption]. now apply (moved_rec false).
  Qed.
  Definition TF (a b : str) : Prop := a = b /\ T a b /\ ~ In 10%N a.
  Lemma sim_recognize_flat : forall A A' k (Q : A -> A' -> Prop) p q, sim true Q p q -> sim k TF (recognize p) (recognize q).
  Proof.
    intros A A' k Q p q H. apply sim_loose. intros s s' E F. specialize (H s s' E F). unfold recognize, same in *. destruct (p s), (q s'); try contradiction; try exact I.
    destruct H as [_ M]. split; [|assumption]. destruct (moved_rec true _ _ _ _ M F) as [H1 H2]. destruct (H2 eq_refl) as [H3 H4]. split; [exact H3|]. split; assumption.
  Qed.
  Lemma sim_consumed : forall A k (p q : parser A), sim true eq p q -> sim k eq (consumed p) (consumed q).
  Proof.
    intros A k p q H. apply sim_loose. intros s s' E F. specialize (H s s' E F). unfold consumed, same in *. destruct (p s), (q s'); try contradiction; try exact I.
    destruct H as [-> (t & t' & -> & -> & E1 & E2 & K)]. destruct (K eq_refl) as [<- N]. split; [f_equal; rewrite !app_length; lia|]. now exists t, t.
  Qed.
  Lemma sim_preceded : forall A A' B B' k (Q : A -> A' -> Prop) (R : B -> B' -> Prop) p p' q q', sim k Q p p' -> sim k R q q' -> sim k R (preceded p q) (preceded p' q').
  Proof. intros. eapply sim_bind; [eassumption|auto]. Qed.
  Lemma sim_terminated : forall A A' B B' k (Q : A -> A' -> Prop) (R : B -> B' -> Prop) p p' q q', sim k Q p p' -> sim k R q q' -> sim k Q (terminated p q) (terminated p' q').
  Proof. intros. eapply sim_bind; [eassumption|]. intros. eapply sim_value; eassumption. Qed.
  Lemma sim_pair : forall A B k (p p' : parser A) (q q' : parser B), sim k eq p p' -> sim k eq q q' -> sim k eq (pair_ p q) (pair_ p' q').
  Proof. intros. eapply sim_bind; [eassumption|]. intros a b ->. eapply sim_pmap; [eassumption|]. now intros ? ? ->. Qed.
  Lemma sim_or : forall A B k (R : A -> B -> Prop) p p' q q', sim k R p p' -> sim k R q q' -> sim k R (or_else p q) (or_else p' q').
  Proof.
    intros A B k R p p' q q' H K s s' E F. specialize (H s s' E F). specialize (K s s' E F). unfold or_else. unfold same in H.
    destruct (p s), (p' s'); try contradiction; try exact I; assumption.
  Qed.
  Lemma sim_alt : forall A B k (R : A -> B -> Prop) l l', Forall2 (sim k R) l l' -> sim k R (alt l) (alt l').
  Proof.
    intros A B k R l l' H. induction H as [|p q l l' H Hl IH]; [apply sim_fail|]. destruct Hl; [exact H|]. exact (sim_or _ _ k R _ _ _ _ H IH).
  Qed.
  Lemma many0_go_sim : forall A B k (R : A -> B -> Prop) p q, sim k R p q -> forall n n' s s', eol s s' -> fine s -> len s < n -> len s' < n' ->
    same k (Forall2 R) s s' (many0_go n p s) (many0_go n' q s').
  Proof.
    intros A B k R p q H n. induction n as [|n IH]; intros n' s s' E F L L'; [lia|]. destruct n' as [|n']; [lia|]. cbn [many0_go].
    pose proof (H s s' E F) as X. unfold same in X at 1. destruct (p s) as [r a| |], (q s') as [r' b| |]; try contradiction; try exact I.
    - destruct X as [X M]. rewrite (moved_len _ _ _ _ _ M). destruct (Nat.eqb_spec (len r') (len s')) as [Z|Z]; [exact I|].
      destruct (moved_fine _ _ _ _ _ M F) as [E' F'].
      assert (LL : len r < len s /\ len r' < len s').
      { pose proof (moved_len _ _ _ _ _ M) as Y. destruct (Nat.eqb_spec (len r') (len s')); [lia|]. apply Nat.eqb_neq in Y.
        destruct M as (t & t' & -> & -> & _). rewrite !app_length in *. lia. }
      specialize (IH n' r r' E' F' ltac:(lia) ltac:(lia)). unfold same in *. destruct (many0_go n p r), (many0_go n' q r'); try contradiction; try exact I.
      destruct IH as [IH M']. split; [now constructor|]. eapply moved_trans; eassumption.
    - split; [constructor|now apply moved_refl].
  Qed.
  Lemma sim_many0 : forall A B k (R : A -> B -> Prop) p q, sim k R p q -> sim k (Forall2 R) (many0 p) (many0 q).
  Proof. intros A B k R p q H s s' E F. apply many0_go_sim; auto. Qed.
  Lemma sim_many1 : forall A B k (R : A -> B -> Prop) p q, sim k R p q -> sim k (Forall2 R) (many1 p) (many1 q).
  Proof. intros A B k R p q H. eapply sim_bind; [exact H|]. intros a b X. eapply sim_pmap; [apply sim_many0, H|]. intros. now constructor. Qed.
  Lemma F2_eq : forall A (l l' : list A), Forall2 eq l l' -> l = l'.
  Proof. intros A l l' H. induction H; subst; reflexivity. Qed.
  Lemma sim_many0_eq : forall A k (p q : parser A), sim k eq p q -> sim k eq (many0 p) (many0 q).
  Proof. intros. eapply sim_weaken; [apply sim_many0; eassumption|]. apply F2_eq. Qed.
  Lemma sim_many1_eq : forall A k (p q : parser A), sim k eq p q -> sim k eq (many1 p) (many1 q).
  Proof. intros. eapply sim_weaken; [apply sim_many1; eassumption|]. apply F2_eq. Qed.
  Lemma sim_mmn : forall A k (p q : parser A), sim k eq p q -> forall mx mn, sim k eq (many_m_n mn mx p) (many_m_n mn mx q).
  Proof.
    intros A k p q H mx. induction mx as [|mx IH]; intros mn s s' E F; cbn [many_m_n]; [split; [reflexivity|now apply moved_refl]|].
    pose proof (H s s' E F) as X. unfold same in X at 1. destruct (p s) as [r a| |], (q s') as [r' b| |]; try contradiction; try exact I.
    - destruct X as [-> M]. rewrite (moved_len _ _ _ _ _ M). destruct (_ =? _); [exact I|]. destruct (moved_fine _ _ _ _ _ M F) as [E' F'].
      specialize (IH (pred mn) r r' E' F'). unfold same in *. destruct (many_m_n _ _ p r), (many_m_n _ _ q r'); try contradiction; try exact I.
      destruct IH as [-> M']. split; [reflexivity|]. eapply moved_trans; eassumption.
    - destruct mn; [split; [reflexivity|now apply moved_refl]|exact I].
  Qed.
  (** the number of rounds is bounded by the length of the input *)
  Lemma mmn_more : forall A (p : parser A), (forall s r a, p s = Ok r a -> len r < len s) -> forall mx mx' mn s, len s + mn < mx -> len s + mn < mx' -> many_m_n mn mx p s = many_m_n mn mx' p s.
  Proof.
    intros A p H mx. induction mx as [|mx IH]; intros mx' mn s L L'; [lia|]. destruct mx' as [|mx']; [lia|]. cbn [many_m_n].
    destruct (p s) as [r a| |] eqn:Ep; try reflexivity. apply H in Ep. destruct (_ =? _); [reflexivity|]. now rewrite (IH mx' (pred mn) r) by lia.
  Qed.
  Lemma sim_mge : forall k f mn, f 10%N = false -> f 13%N = false -> sim k eq (satisfy f) (satisfy f) -> sim k eq (many_ge mn (satisfy f)) (many_ge mn (satisfy f)).
  Proof.
    intros k f mn _ _ H s s' E F. unfold many_ge. assert (P : forall s r a, satisfy f s = Ok r a -> len r < len s).
    { intros x r a X. destruct x as [|c x]; [discriminate|]. cbn in X. destruct (f c); [|discriminate]. injection X as <- <-. cbn. lia. }
    apply eol_len in E as L. rewrite (mmn_more _ _ P (S (len s) + mn) (S (len s') + mn) mn s) by lia. now apply sim_mmn.
  Qed.
  Lemma sep_go_sim : forall A B C k (R : A -> B -> Prop) (W : C -> C -> Prop) (sep sep' : parser C) p q, sim k W sep sep' -> sim k R p q -> forall n n' s s', eol s s' -> fine s -> len s < n -> len s' < n' ->
    same k (Forall2 R) s s' (sep_go n sep p s) (sep_go n' sep' q s').
  Proof.
    intros A B C k R W sep sep' p q Hs H n. induction n as [|n IH]; intros n' s s' E F L L'; [lia|]. destruct n' as [|n']; [lia|]. cbn [sep_go].
    pose proof (Hs s s' E F) as Y. unfold same in Y at 1. destruct (sep s) as [m c| |], (sep' s') as [m' c'| |]; try contradiction; try exact I; [|split; [constructor|now apply moved_refl]].
    destruct Y as [_ M0]. destruct (moved_fine _ _ _ _ _ M0 F) as [E0 F0].
    pose proof (H m m' E0 F0) as X. unfold same in X at 1. destruct (p m) as [r a| |], (q m') as [r' b| |]; try contradiction; try exact I; [|split; [constructor|now apply moved_refl]].
    destruct X as [X M1]. pose proof (moved_trans _ _ _ _ _ _ _ M0 M1) as M. rewrite (moved_len _ _ _ _ _ M). destruct (Nat.eqb_spec (len r') (len s')) as [Z|Z]; [exact I|].
    destruct (moved_fine _ _ _ _ _ M F) as [E' F'].
    assert (LL : len r < len s /\ len r' < len s').
    { pose proof (moved_len _ _ _ _ _ M) as Y. destruct (Nat.eqb_spec (len r') (len s')); [lia|]. apply Nat.eqb_neq in Y.
      destruct M as (t & t' & -> & -> & _). rewrite !app_length in *. lia. }
    specialize (IH n' r r' E' F' ltac:(lia) ltac:(lia)). unfold same in *. destruct (sep_go n sep p r), (sep_go n' sep' q r'); try contradiction; try exact I.
    destruct IH as [IH M']. split; [now constructor|]. eapply moved_trans; eassumption.
  Qed.
  Lemma sim_sep1 : forall A C k (W : C -> C -> Prop) (sep sep' : parser C) (p q : parser A), sim k W sep sep' -> sim k eq p q -> sim k eq (separated_list1 sep p) (separated_list1 sep' q).
  Proof.
    intros A C k W sep sep' p q Hs H. eapply sim_bind; [exact H|]. intros a b ->. eapply (sim_pmap _ _ _ _ k (Forall2 eq)); [|intros x y X; now rewrite (F2_eq _ _ _ X)].
    intros s s' E F. now apply (sep_go_sim _ _ _ _ _ W); auto.
  Qed.
  Lemma sim_sep0 : forall A C k (W : C -> C -> Prop) (sep sep' : parser C) (p q : parser A), sim k W sep sep' -> sim k eq p q -> sim k eq (separated_list0 sep p) (separated_list0 sep' q).
  Proof.
    intros A C k W sep sep' p q Hs H s s' E F. unfold separated_list0. pose proof (H s s' E F) as X. unfold same in X at 1.
    destruct (p s) as [r a| |], (q s') as [r' b| |]; try contradiction; try exact I; [|split; [reflexivity|now apply moved_refl]].
    destruct X as [-> M]. destruct (moved_fine _ _ _ _ _ M F) as [E' F']. eapply same_trans; [exact M|].
    eapply (sim_pmap _ _ _ _ k (Forall2 eq) eq); [|intros x y X; now rewrite (F2_eq _ _ _ X)|assumption|assumption].
    intros u u' E1 F1. now apply (sep_go_sim _ _ _ _ _ W); auto.
  Qed.
  Lemma sim_nested : forall A B k k' (R : A -> B -> Prop) p q c c', sim k' R p q -> T c c' -> sim k R (nested p c) (nested q c').
  Proof.
    intros A B k k' R p q c c' H [E F] s s' E' F'. specialize (H c c' E F). unfold nested, same in *. destruct (p c), (q c'); try contradiction; try exact I.
    destruct H. split; [assumption|now apply moved_refl].
  Qed.
  Lemma sim_nested_eq : forall A k (p : parser A) c, sim k eq (nested p c) (nested p c).
  Proof. intros A k p c s s' E F. unfold nested, same. destruct (p c); try exact I. split; [reflexivity|now apply moved_refl]. Qed.

  (** ** Leaves *)
  Lemma sim_satisfy : forall k f, f 10%N = false -> f 13%N = false -> sim k eq (satisfy f) (satisfy f).
  Proof.
    intros k f H H' s s' E F. destruct E as [|c s s' N E|s s' E]; cbn [satisfy]; rewrite ?H, ?H'; try exact I.
    destruct (f c) eqn:Ef; [|exact I]. split; [reflexivity|]. exists [c], [c]. repeat split; [constructor; [assumption|constructor]|assumption|]. intros [->|[]]. congruence.
  Qed.
  Lemma tag_go_sim : forall eqb t, Forall (fun x => eqb x 10%N = false /\ eqb x 13%N = false) t -> forall s s', eol s s' ->
    match tag_go eqb t s, tag_go eqb t s' with
    | Some r, Some r' => exists u, len u = len t /\ s = u ++ r /\ s' = u ++ r' /\ eol u u /\ eol r r' /\ ~ In 10%N u
    | None, None => True
    | _, _ => False
    end.
  Proof.
    intros eqb t H. induction H as [|x t [H1 H2] _ IH]; intros s s' E; cbn [tag_go].
    - exists []. repeat split; [constructor|assumption|intros []].
    - destruct E as [|c s s' N E|s s' E]; rewrite ?H1, ?H2; try exact I. destruct (eqb x c) eqn:Ex; [|exact I]. specialize (IH s s' E).
      destruct (tag_go eqb t s), (tag_go eqb t s'); try contradiction; try exact I. destruct IH as (u & L & -> & -> & Eu & Er & Nu).
      exists (c :: u). cbn [app List.length]. rewrite L. repeat split; [now constructor|assumption|]. intros [->|J]; [congruence|auto].
  Qed.
  Lemma sim_tag : forall k t, Forall (fun x => x <> 10%N /\ x <> 13%N) t -> sim k eq (Nom.tag t) (Nom.tag t).
  Proof.
    intros k t H s s' E F. unfold Nom.tag, tag_by.
    assert (H' : Forall (fun x => (N.eqb x 10 = false) /\ N.eqb x 13 = false) t).
    { eapply Forall_impl; [|exact H]. intros x [A B]. split; now apply N.eqb_neq. }
    pose proof (tag_go_sim N.eqb t H' s s' E) as X. destruct (tag_go N.eqb t s) as [r|], (tag_go N.eqb t s') as [r'|]; try contradiction; try exact I.
    destruct X as (u & L & -> & -> & Eu & Er & Nu). split; [rewrite !firstn_app, <- L, !Nat.sub_diag, !firstn_all, !firstn_O; reflexivity|].
    exists u, u. now repeat split.
  Qed.
  Lemma span_sim : forall f, f 10%N = false -> f 13%N = false -> forall s s', eol s s' ->
    exists u r r', span f s = (u, r) /\ span f s' = (u, r') /\ s = u ++ r /\ s' = u ++ r' /\ eol u u /\ eol r r' /\ ~ In 10%N u.
  Proof.
    intros f H H' s s' E. induction E as [|c s s' N E IH|s s' E IH]; cbn [span].
    - exists [], [], []. repeat split; try constructor. intros [].
    - destruct (f c) eqn:Ef.
      + destruct IH as (u & r & r' & -> & -> & -> & -> & Eu & Er & Nu). exists (c :: u), r, r'. repeat split; [now constructor|assumption|].
        intros [->|J]; [congruence|auto].
      + exists [], (c :: s), (c :: s'). repeat split; [constructor|now constructor|intros []].
    - rewrite H, H'. exists [], (10%N :: s), (13%N :: 10%N :: s'). repeat split; [constructor|now constructor|intros []].
  Qed.
  Lemma sim_take : forall k f, f 10%N = false -> f 13%N = false -> sim k eq (take_while f) (take_while f).
  Proof.
    intros k f H H' s s' E F. unfold take_while. destruct (span_sim f H H' s s' E) as (u & r & r' & -> & -> & -> & -> & Eu & Er & Nu).
    split; [reflexivity|]. exists u, u. now repeat split.
  Qed.
  Lemma sim_take1 : forall k f, f 10%N = false -> f 13%N = false -> sim k eq (take_while1 f) (take_while1 f).
  Proof.
    intros k f H H' s s' E F. unfold take_while1. destruct (span_sim f H H' s s' E) as (u & r & r' & -> & -> & -> & -> & Eu & Er & Nu).
    destruct u; [exact I|]. split; [reflexivity|]. eexists _, _. now repeat split.
  Qed.
  Lemma sim_u64 : forall k, sim k eq u64 u64.
  Proof.
    intros k s s' E F. unfold u64. destruct (span_sim is_digit eq_refl eq_refl s s' E) as (u & r & r' & -> & -> & -> & -> & Eu & Er & Nu).
    destruct u; [exact I|]. destruct (_ <=? _)%N; [|exact I]. split; [reflexivity|]. eexists _, _. now repeat split.
  Qed.
  Lemma sim_eof : forall k, sim k eq eof eof.
  Proof. intros k s s' E F. destruct E; try exact I. split; [reflexivity|]. apply moved_refl. constructor. Qed.
  Lemma sim_line_ending : sim false (fun _ _ => True) line_ending line_ending.
  Proof.
    intros s s' E F. destruct E as [|c s s' N E|s s' E].
    - exact I.
    - unfold line_ending. cbn [alt or_else Nom.tag tag_by tag_go c_nl c_cr]. unfold or_else, Nom.tag, tag_by. cbn [tag_go].
      destruct (N.eqb_spec c_nl c) as [<-|N1].
      + split; [exact I|]. exists [c_nl], [c_nl]. split; [reflexivity|]. split; [reflexivity|]. split; [apply eol_char; [assumption|apply eol_nil]|]. split; [assumption|discriminate].
      + destruct (N.eqb_spec c_cr c) as [<-|N2]; [now exfalso|exact I].
    - split; [exact I|]. exists [10%N], [13%N; 10%N]. split; [reflexivity|]. split; [reflexivity|]. split; [apply eol_cr, eol_nil|]. split; [assumption|discriminate].
  Qed.
  Lemma sim_eol : sim false (fun _ _ => True) eof_or_eol eof_or_eol.
  Proof. apply sim_alt. repeat constructor; [apply sim_line_ending|]. eapply sim_weaken; [apply sim_eof|auto]. Qed.
  Lemma sim_nle : forall k, sim k TF not_line_ending not_line_ending.
  Proof.
    intros k s s' E F. unfold not_line_ending. match goal with |- context [span ?f s] => destruct (span_sim f eq_refl eq_refl s s' E) as (u & r & r' & -> & -> & -> & -> & Eu & Er & Nu) end.
    assert (X : TF u u /\ moved k (u ++ r) (u ++ r') r r').
    { split; [split; [reflexivity|split; [split; [assumption|now apply fine_l in F]|assumption]]|]. exists u, u. now repeat split. }
    destruct Er as [|c r r' N E'|r r' E'].
    - exact X.
    - destruct (N.eqb_spec c 13); [contradiction|exact X].
    - cbn. exact X.
  Qed.
  Lemma sim_line0 : forall k, sim k TF not_eof_or_eol0 not_eof_or_eol0.
  Proof.
    intro k. apply sim_alt. constructor; [apply sim_nle|]. constructor; [|constructor].
    intros s s' E F. destruct E; try exact I. split; [|apply moved_refl; constructor]. split; [reflexivity|]. split; [split; [constructor|assumption]|intros []].
  Qed.
  (** one character that is no line ending *)
  Lemma sim_any : forall k, sim k eq (preceded (not_ eof_or_eol) anychar) (preceded (not_ eof_or_eol) anychar).
  Proof.
    intros k s s' E F. unfold preceded, bind, not_. pose proof (sim_eol s s' E F) as X. unfold same in X.
    destruct (eof_or_eol s) as [r a| |] eqn:E1, (eof_or_eol s') as [r' a'| |]; try contradiction; try exact I. clear X.
    destruct E as [|c s s' N E|s s' E]; [exact I| |discriminate E1]. cbn. split; [reflexivity|]. exists [c], [c]. repeat split; [repeat constructor; assumption|assumption|]. intros [->|[]]. discriminate E1.
  Qed.
  Lemma sim_line1 : forall k, sim k TF not_eof_or_eol1 not_eof_or_eol1.
  Proof. intro k. eapply sim_recognize_flat. apply sim_many1_eq. apply sim_any. Qed.
End Eol.
