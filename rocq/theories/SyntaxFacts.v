(** Exactness: a parser computes a relation.  Combinators. *)
From Coq Require Import String.
From Verif Require Import SpecParser Nom NomFacts ParserLeaf ParserTotal ParserCode SpecInline.
Import ListNotations.
Open Scope list_scope.
Local Notation len := (@List.length _).

Definition exact {A} (p : parser A) (R : str -> A -> str -> Prop) : Prop :=
  safe p /\ forall s r a, p s = Ok r a <-> R s a r.

Section Gen1.
Context {A : Type}.
Lemma exact_iff : forall (p : parser A) R R', exact p R -> (forall s a r, R s a r <-> R' s a r) -> exact p R'.
Proof. intros p R R' [S H] E. split; [exact S|]. intros. rewrite H. apply E. Qed.
Lemma exact_fun : forall (p : parser A) R, exact p R -> forall s a r a' r', R s a r -> R s a' r' -> a = a' /\ r = r'.
Proof. intros p R [_ H] s a r a' r' H1 H2. apply H in H1, H2. rewrite H1 in H2. now injection H2. Qed.
Lemma exact_err : forall (p : parser A) R, exact p R -> forall s, p s = Err <-> ~ exists a r, R s a r.
Proof.
  intros p R [S H] s. split.
  - intros E (a & r & X). apply H in X. congruence.
  - intro N. destruct (p s) as [r a| |] eqn:E; [|reflexivity|now elim (S s)]. elim N. exists a, r. now apply H.
Qed.
Lemma exact_dec : forall (p : parser A) R, exact p R -> forall s, (exists a r, R s a r) \/ ~ exists a r, R s a r.
Proof.
  intros p R [S H] s. destruct (p s) as [r a| |] eqn:E; [|right|now elim (S s)].
  - left. exists a, r. now apply H.
  - intros (a & r & X). apply H in X. congruence.
Qed.
Lemma exact_ok : forall (p : parser A) R, exact p R -> forall s a r, R s a r -> p s = Ok r a.
Proof. intros p R [S H] s a r. apply H. Qed.
Lemma exact_inv : forall (p : parser A) R, exact p R -> forall s a r, p s = Ok r a -> R s a r.
Proof. intros p R [S H] s a r. apply H. Qed.

End Gen1.
Section Gen.
Context {A B : Type}.
Lemma exact_ret : forall a : A, exact (ret a) (fun s x r => x = a /\ r = s).
Proof.
  intro a. split; [discriminate|]. intros s r x. unfold ret. split; [intro E; injection E as <- <-; auto|intros [-> ->]; reflexivity].
Qed.
Lemma exact_fail : exact (@fail A) (fun _ _ _ => False).
Proof. split; [discriminate|]. intros. split; [discriminate|tauto]. Qed.
Lemma exact_bind : forall (p : parser A) (f : A -> parser B) R Q, exact p R -> (forall a, exact (f a) (Q a)) ->
  exact (bind p f) (fun s b r => exists a m, R s a m /\ Q a m b r).
Proof.
  intros p f R Q [S H] Hf. split.
  - intro s. unfold bind. destruct (p s) eqn:E; [apply Hf|discriminate|now elim (S s)].
  - intros s r b. unfold bind. split.
    + destruct (p s) as [m a| |] eqn:E; try discriminate. intro X. exists a, m. split; [now apply H|now apply Hf].
    + intros (a & m & X & Y). apply H in X. rewrite X. now apply Hf.
Qed.
Lemma exact_pmap : forall (f : A -> B) (p : parser A) R, exact p R -> exact (pmap f p) (fun s b r => exists a, R s a r /\ b = f a).
Proof.
  intros f p R [S H]. split.
  - intro s. unfold pmap, bind, ret. destruct (p s) eqn:E; [discriminate|discriminate|now elim (S s)].
  - intros s r b. unfold pmap, bind, ret. split.
    + destruct (p s) as [m a| |] eqn:E; try discriminate. intro X. injection X as <- <-. exists a. split; [now apply H|reflexivity].
    + intros (a & X & ->). apply H in X. now rewrite X.
Qed.
Lemma exact_value : forall (v : B) (p : parser A) R, exact p R -> exact (value v p) (fun s b r => b = v /\ exists a, R s a r).
Proof.
  intros v p R H. eapply exact_iff; [apply exact_pmap, H|]. intros s b r. split.
  - intros (a & X & ->). eauto.
  - intros (-> & a & X). eauto.
Qed.
Lemma exact_or : forall (p q : parser A) R Q, exact p R -> exact q Q ->
  exact (or_else p q) (fun s a r => R s a r \/ (~ (exists a' r', R s a' r') /\ Q s a r)).
Proof.
  intros p q R Q Hp Hq. split.
  - intro s. unfold or_else. destruct Hp as [S _]. destruct (p s) eqn:E; [discriminate|apply Hq|now elim (S s)].
  - intros s r a. unfold or_else. destruct (p s) as [m x| |] eqn:E.
    + split.
      * intro X. injection X as <- <-. left. now apply Hp.
      * intros [X|[N _]]; [apply Hp in X; congruence|]. elim N. exists x, m. now apply Hp.
    + pose proof (proj1 (exact_err _ _ Hp s) E) as N. split.
      * intro X. right. split; [exact N|now apply Hq].
      * intros [X|[_ X]]; [elim N; eauto|now apply Hq].
    + now elim (proj1 Hp s).
Qed.
Lemma exact_opt : forall (p : parser A) R, exact p R ->
  exact (opt p) (fun s o r => match o with Some a => R s a r | None => s = r /\ ~ exists a r', R s a r' end).
Proof.
  intros p R H. split.
  - intro s. unfold opt. destruct (p s) eqn:E; try discriminate. now elim (proj1 H s).
  - intros s r o. unfold opt. destruct (p s) as [m x| |] eqn:E.
    + split; [intro X; injection X as <- <-; now apply H|]. destruct o as [a|].
      * intro X. apply H in X. congruence.
      * intros [_ N]. elim N. exists x, m. now apply H.
    + pose proof (proj1 (exact_err _ _ H s) E) as N. split; [intro X; injection X as <- <-; auto|].
      destruct o as [a|]; [intro X; elim N; eauto|]. now intros [-> _].
    + now elim (proj1 H s).
Qed.
Lemma exact_not : forall (p : parser A) R, exact p R -> exact (not_ p) (fun s _ r => s = r /\ ~ exists a r', R s a r').
Proof.
  intros p R H. split.
  - intro s. unfold not_. destruct (p s) eqn:E; try discriminate. now elim (proj1 H s).
  - intros s r []. unfold not_. destruct (p s) as [m x| |] eqn:E.
    + split; [discriminate|]. intros [_ N]. elim N. exists x, m. now apply H.
    + pose proof (proj1 (exact_err _ _ H s) E) as N. split; [intro X; injection X as <-; auto|]. now intros [-> _].
    + now elim (proj1 H s).
Qed.
Lemma exact_peek : forall (p : parser A) R, exact p R -> exact (peek p) (fun s a r => s = r /\ exists r', R s a r').
Proof.
  intros p R H. split.
  - intro s. unfold peek. destruct (p s) eqn:E; try discriminate. now elim (proj1 H s).
  - intros s r a. unfold peek. destruct (p s) as [m x| |] eqn:E.
    + split; [intro X; injection X as <- <-; split; [reflexivity|exists m; now apply H]|].
      intros [-> [r' X]]. apply H in X. congruence.
    + pose proof (proj1 (exact_err _ _ H s) E) as N. split; [discriminate|]. intros [_ [r' X]]. elim N. eauto.
    + now elim (proj1 H s).
Qed.
Lemma exact_verify : forall (p : parser A) (f : A -> bool) R, exact p R -> exact (verify p f) (fun s a r => R s a r /\ f a = true).
Proof.
  intros p f R H. split.
  - intro s. unfold verify, bind. destruct (p s) as [m x| |] eqn:E; try discriminate; [|now elim (proj1 H s)].
    destruct (f x); discriminate.
  - intros s r a. unfold verify, bind. destruct (p s) as [m x| |] eqn:E.
    + apply H in E. split.
      * destruct (f x) eqn:F; [|discriminate]. intro X. injection X as <- <-. auto.
      * intros [X F]. destruct (exact_fun _ _ H _ _ _ _ _ X E) as [-> ->]. now rewrite F.
    + pose proof (proj1 (exact_err _ _ H s) E) as N. split; [discriminate|]. intros [X _]. elim N. eauto.
    + now elim (proj1 H s).
Qed.
Lemma exact_map_opt : forall (p : parser A) (f : A -> option B) R, exact p R ->
  exact (map_opt p f) (fun s b r => exists a, R s a r /\ f a = Some b).
Proof.
  intros p f R H. split.
  - intro s. unfold map_opt, bind. destruct (p s) as [m x| |] eqn:E; try discriminate; [|now elim (proj1 H s)].
    destruct (f x); discriminate.
  - intros s r b. unfold map_opt, bind. destruct (p s) as [m x| |] eqn:E.
    + apply H in E. split.
      * destruct (f x) eqn:F; [|discriminate]. intro X. injection X as <- <-. eauto.
      * intros (a & X & F). destruct (exact_fun _ _ H _ _ _ _ _ X E) as [-> ->]. now rewrite F.
    + pose proof (proj1 (exact_err _ _ H s) E) as N. split; [discriminate|]. intros (a & X & _). elim N. eauto.
    + now elim (proj1 H s).
Qed.
Lemma exact_recognize : forall (p : parser A) R, exact p R -> eats false p ->
  exact (recognize p) (fun s v r => s = v ++ r /\ exists a, R s a r).
Proof.
  intros p R H Ep. split.
  - intro s. unfold recognize. destruct (p s) as [m x| |] eqn:E; try discriminate. now elim (proj1 H s).
  - intros s r v. split.
    + unfold recognize. destruct (p s) as [m x| |] eqn:E; try discriminate. intro X.
      destruct (Ep _ _ _ E) as (c & -> & _). rewrite firstn_consumed in X. injection X as <- <-.
      split; [reflexivity|]. exists x. now apply H.
    + intros (-> & a & X). apply H in X. eapply recognize_ok, X.
Qed.
(** greedy repetition; every round consumes something *)
Inductive many_of (R : str -> A -> str -> Prop) : str -> list A -> str -> Prop :=
| many_stop : forall s, (~ exists a r, R s a r) -> many_of R s [] s
| many_step : forall s a m l r, R s a m -> len m < len s -> many_of R m l r -> many_of R s (a :: l) r.
Lemma many0_go_exact : forall (p : parser A) R, exact p R -> eats false p -> forall n s, len s < n ->
  many0_go n p s <> Oof /\ forall r l, many0_go n p s = Ok r l <-> many_of R s l r.
Proof.
  intros p R H Ep. induction n as [|n IH]; intros s L; [lia|]. cbn [many0_go].
  destruct (p s) as [m a| |] eqn:E.
  - pose proof (eats_len _ _ _ _ _ _ Ep E) as Le. destruct (len m =? len s) eqn:Q.
    + apply Nat.eqb_eq in Q. split; [discriminate|]. intros r l. split; [discriminate|]. intro X. apply H in E.
      inversion X as [s0 N|s0 a0 m0 l0 r0 X1 X2 X3]; subst; [elim N; eauto|].
      destruct (exact_fun _ _ H _ _ _ _ _ X1 E) as [_ ->]. unfold char, str in *. lia.
    + apply Nat.eqb_neq in Q. assert (len m < n) as L' by lia. destruct (IH m L') as [S X].
      destruct (many0_go n p m) as [r1 l1| |] eqn:E1; [|split; [discriminate|]|now elim S].
      * split; [discriminate|]. intros r l. split.
        -- intro Y. injection Y as <- <-. apply many_step with m; [now apply H|lia|now apply X].
        -- intro Y. apply H in E. inversion Y as [s0 N|s0 a0 m0 l0 r0 X1 X2 X3]; subst; [elim N; eauto|].
           destruct (exact_fun _ _ H _ _ _ _ _ X1 E) as [-> ->]. apply X in X3. congruence.
      * intros r l. split; [discriminate|]. intro Y. apply H in E. inversion Y as [s0 N|s0 a0 m0 l0 r0 X1 X2 X3]; subst; [elim N; eauto|].
        destruct (exact_fun _ _ H _ _ _ _ _ X1 E) as [-> ->]. apply X in X3. congruence.
  - pose proof (proj1 (exact_err _ _ H s) E) as N. split; [discriminate|]. intros r l. split.
    + intro X. injection X as <- <-. now apply many_stop.
    + intro X. inversion X as [s0 N0|s0 a0 m0 l0 r0 X1 X2 X3]; subst; [reflexivity|]. elim N. eauto.
  - now elim (proj1 H s).
Qed.
Lemma exact_many0 : forall (p : parser A) R, exact p R -> eats false p -> exact (many0 p) (many_of R).
Proof.
  intros p R H Ep. split.
  - intro s. apply (many0_go_exact p R H Ep (S (len s)) s). lia.
  - intros s r l. apply (many0_go_exact p R H Ep (S (len s)) s). lia.
Qed.
End Gen.
Lemma exact_many1 : forall A (p : parser A) R, exact p R -> eats true p ->
  exact (many1 p) (fun s l r => l <> [] /\ many_of R s l r).
Proof.
  intros A p R H Ep. unfold many1. eapply exact_iff.
  - apply exact_bind; [exact H|]. intro a. apply exact_pmap, exact_many0; [exact H|eapply eats_weaken; eassumption].
  - intros s l r. split.
    + intros (a & m & X & l' & Y & ->). split; [discriminate|]. apply many_step with m; [exact X| |exact Y].
      apply H in X. apply (eats_lt _ _ _ _ _ Ep X).
    + intros [N X]. inversion X as [s0 N0|s0 a0 m0 l0 r0 X1 X2 X3]; subst; [now elim N|]. exists a0, m0. split; [exact X1|]. eauto.
Qed.

(** ** Primitive parsers *)
Lemma exact_satisfy : forall f, exact (satisfy f) (fun s c r => s = c :: r /\ f c = true).
Proof.
  intro f. split.
  - intros [|c s]; [discriminate|]. cbn. destruct (f c); discriminate.
  - intros s r c. unfold satisfy. split.
    + destruct s as [|x s]; [discriminate|]. destruct (f x) eqn:F; [|discriminate]. intro X. now injection X as <- <-.
    + intros [-> F]. now rewrite F.
Qed.
Lemma exact_char : forall c, exact (char_ c) (fun s x r => x = c /\ s = c :: r).
Proof.
  intro c. eapply exact_iff; [apply exact_satisfy|]. intros s x r. cbn. rewrite N.eqb_eq. split; intros [? ?]; subst; auto.
Qed.
Lemma exact_anychar : exact anychar (fun s x r => s = x :: r).
Proof. eapply exact_iff; [apply exact_satisfy|]. intros s x r. cbn. tauto. Qed.
Lemma existsb_In : forall c l, existsb (N.eqb c) l = true <-> In c l.
Proof.
  intros c l. rewrite existsb_exists. split.
  - intros (x & H & E). apply N.eqb_eq in E. now subst.
  - intro H. exists c. split; [exact H|apply N.eqb_refl].
Qed.
Lemma exact_one_of : forall l, exact (one_of l) (fun s x r => s = x :: r /\ In x l).
Proof. intro l. eapply exact_iff; [apply exact_satisfy|]. intros s x r. cbn. now rewrite existsb_In. Qed.
Lemma exact_none_of : forall l, exact (none_of l) (fun s x r => s = x :: r /\ ~ In x l).
Proof.
  intro l. eapply exact_iff; [apply exact_satisfy|]. intros s x r. cbn. rewrite negb_true_iff.
  rewrite <- (existsb_In x l). destruct (existsb (N.eqb x) l); intuition congruence.
Qed.
Lemma exact_tag : forall t, exact (Nom.tag t) (fun s v r => v = t /\ s = t ++ r).
Proof.
  intro t. split; [intro s; apply tag_safe|]. intros s r v. rewrite tag_iff. tauto.
Qed.
Definition not_first (f : char -> bool) (r : str) : Prop := forall c, begins_with c r -> f c = false.
Lemma not_first_nil : forall f, not_first f []. Proof. intros f c [t X]. discriminate. Qed.
Lemma not_first_cons : forall f c s, not_first f (c :: s) <-> f c = false.
Proof. intros f c s. split; [intro H; apply H; now exists s|intros H x [t X]; now injection X as <- <-]. Qed.
Lemma span_iff : forall f s a b, span f s = (a, b) <-> s = a ++ b /\ all f a /\ not_first f b.
Proof.
  intros f. induction s as [|c s IH]; intros a b; cbn [span].
  - split.
    + intro X. injection X as <- <-. split; [reflexivity|]. split; [constructor|apply not_first_nil].
    + intros (X & _). symmetry in X. apply app_eq_nil in X as [-> ->]. reflexivity.
  - destruct (f c) eqn:F.
    + destruct (span f s) as [a' b'] eqn:E. split.
      * intro X. injection X as <- <-. destruct (proj1 (IH a' b') eq_refl) as (-> & H1 & H2).
        split; [reflexivity|]. split; [constructor; assumption|assumption].
      * intros (X & H1 & H2). destruct a as [|x a].
        -- cbn in X. subst b. apply not_first_cons in H2. congruence.
        -- injection X as <- ->. inversion H1; subst. assert (X : (a', b') = (a, b)) by (apply IH; auto). now injection X as -> ->.
    + split.
      * intro X. injection X as <- <-. split; [reflexivity|]. split; [constructor|]. now apply not_first_cons.
      * intros (X & H1 & H2). destruct a as [|x a]; [now cbn in X; subst|]. injection X as <- _. inversion H1; congruence.
Qed.
Lemma exact_take_while : forall f, exact (take_while f) (fun s v r => s = v ++ r /\ all f v /\ not_first f r).
Proof.
  intro f. split.
  - intro s. unfold take_while. destruct (span f s). discriminate.
  - intros s r v. rewrite <- span_iff. unfold take_while. destruct (span f s). split; intro X; now injection X as <- <-.
Qed.
Lemma exact_take_while1 : forall f, exact (take_while1 f) (fun s v r => v <> [] /\ s = v ++ r /\ all f v /\ not_first f r).
Proof.
  intro f. split.
  - intro s. unfold take_while1. destruct (span f s) as [[|] ?]; discriminate.
  - intros s r v. rewrite <- span_iff. unfold take_while1. destruct (span f s) as [[|c a] b].
    + split; [discriminate|]. intros [N X]. now injection X as <- <-.
    + split; [intro X; injection X as <- <-; split; [discriminate|reflexivity]|]. intros [_ X]. now injection X as <- <-.
Qed.
Lemma exact_eof : exact eof (fun s v r => s = [] /\ r = [] /\ v = []).
Proof.
  split; [intros [|]; discriminate|]. intros s r v. unfold eof. destruct s; split; try discriminate.
  - intro X. now injection X as <- <-.
  - intros (_ & -> & ->). reflexivity.
  - now intros (X & _).
Qed.
Lemma exact_line_ending : exact line_ending (fun s e r => is_eol e /\ s = e ++ r).
Proof.
  unfold line_ending, alt. eapply exact_iff; [apply exact_or; apply exact_tag|]. intros s e r. cbv beta. unfold is_eol. split.
  - intros [[-> ->]|[_ [-> ->]]]; split; auto.
  - intros [[->| ->] ->]; [left; auto|right]. split; [|auto]. intros (a & r' & _ & X). discriminate.
Qed.

(** ** Sequences *)
Lemma exact_preceded : forall A B (p : parser A) (q : parser B) R Q, exact p R -> exact q Q ->
  exact (preceded p q) (fun s b r => exists a m, R s a m /\ Q m b r).
Proof. intros A B p q R Q Hp Hq. unfold preceded. apply exact_bind with (Q := fun _ => Q); auto. Qed.
Lemma exact_terminated : forall A B (p : parser A) (q : parser B) R Q, exact p R -> exact q Q ->
  exact (terminated p q) (fun s a r => exists m b, R s a m /\ Q m b r).
Proof.
  intros A B p q R Q Hp Hq. unfold terminated. eapply exact_iff.
  - apply exact_bind with (Q := fun a s x r => x = a /\ exists b, Q s b r); [exact Hp|]. intro a. apply exact_value, Hq.
  - intros s a r. cbv beta. split.
    + intros (x & m & X & -> & b & Y). eauto.
    + intros (m & b & X & Y). exists a, m. eauto.
Qed.
Lemma exact_delimited : forall A B C (p : parser A) (q : parser B) (t : parser C) R Q T, exact p R -> exact q Q -> exact t T ->
  exact (delimited p q t) (fun s b r => exists a m1 m2 c, R s a m1 /\ Q m1 b m2 /\ T m2 c r).
Proof.
  intros A B C p q t R Q T Hp Hq Ht. unfold delimited. eapply exact_iff.
  - apply exact_preceded; [exact Hp|]. apply exact_terminated; eassumption.
  - intros s b r. cbv beta. split.
    + intros (a & m & X & m2 & c & Y & Z). exists a, m, m2, c. auto.
    + intros (a & m1 & m2 & c & X & Y & Z). exists a, m1. split; [exact X|]. eauto.
Qed.
Lemma exact_pair : forall A B (p : parser A) (q : parser B) R Q, exact p R -> exact q Q ->
  exact (pair_ p q) (fun s x r => exists m, R s (fst x) m /\ Q m (snd x) r).
Proof.
  intros A B p q R Q Hp Hq. unfold pair_. eapply exact_iff.
  - apply exact_bind with (Q := fun a s x r => exists b, Q s b r /\ x = (a, b)); [exact Hp|]. intro a. apply exact_pmap, Hq.
  - intros s [a b] r. cbv beta. cbn [fst snd]. split.
    + intros (x & m & X & y & Y & E). injection E as -> ->. eauto.
    + intros (m & X & Y). exists a, m. eauto.
Qed.
Lemma exact_unit : forall A (p : parser A) R, exact p R -> exact (p_unit p) (fun s _ r => exists a, R s a r).
Proof.
  intros A p R H. unfold p_unit. eapply exact_iff; [apply exact_value, H|]. intros s [] r. cbv beta. intuition.
Qed.
Lemma exact_until : forall A (stop : parser A) R, exact stop R ->
  exact (preceded (peek (not_ stop)) anychar) (fun s c r => s = c :: r /\ ~ exists a r', R s a r').
Proof.
  intros A stop R H. eapply exact_iff.
  - apply exact_preceded; [apply exact_peek, exact_not, H|apply exact_anychar].
  - intros s c r. cbv beta. split.
    + intros (a & m & (-> & r' & -> & N) & ->). auto.
    + intros [-> N]. exists tt, (c :: r). eauto 6.
Qed.
Lemma exact_bind_pair : forall A A' B (p : parser (A * A')) (f : A * A' -> parser B) R Q, exact p R -> (forall a b, exact (f (a, b)) (Q a b)) ->
  exact (bind p f) (fun s x r => exists a b m, R s (a, b) m /\ Q a b m x r).
Proof.
  intros A A' B p f R Q Hp Hf. eapply exact_iff.
  - apply exact_bind with (Q := fun ab => Q (fst ab) (snd ab)); [exact Hp|]. intros [a b]. apply Hf.
  - intros s x r. split; [intros ([a b] & m & X & Y); eauto|intros (a & b & m & X & Y); exists (a, b), m; auto].
Qed.
(** [P] is looked ahead for *)
Definition ahead (P : str -> Prop) : str -> unit -> str -> Prop := fun s _ r => s = r /\ P s.
Lemma exact_peek_not : forall A (stop : parser A) R, exact stop R ->
  exact (peek (not_ stop)) (ahead (fun s => ~ exists a r, R s a r)).
Proof.
  intros A stop R H. eapply exact_iff; [apply exact_peek, exact_not, H|].
  intros s [] r. unfold ahead. split; [intros (-> & r' & _ & N); auto|intros [-> N]; eauto].
Qed.

Ltac ex1 :=
  match goal with
  | |- exact (ret _) _ => apply exact_ret
  | |- exact fail _ => apply exact_fail
  | |- exact (pmap _ _) _ => eapply exact_pmap
  | |- exact (value _ _) _ => eapply exact_value
  | |- exact (opt _) _ => eapply exact_opt
  | |- exact (preceded (peek (not_ _)) anychar) _ => eapply exact_until
  | |- exact (peek (not_ _)) _ => eapply exact_peek_not
  | |- exact (not_ _) _ => eapply exact_not
  | |- exact (peek _) _ => eapply exact_peek
  | |- exact (verify _ _) _ => eapply exact_verify
  | |- exact (map_opt _ _) _ => eapply exact_map_opt
  | |- exact (recognize _) _ => eapply exact_recognize
  | |- exact (preceded _ _) _ => eapply exact_preceded
  | |- exact (terminated _ _) _ => eapply exact_terminated
  | |- exact (delimited _ _ _) _ => eapply exact_delimited
  | |- exact (pair_ _ _) _ => eapply exact_pair
  | |- exact (p_unit _) _ => eapply exact_unit
  | |- exact (alt (_ :: _ :: _)) _ => change_alt
  | |- exact (alt [_]) _ => unfold alt
  | |- exact (or_else _ _) _ => eapply exact_or
  | |- exact (many0 _) _ => eapply exact_many0
  | |- exact (many1 _) _ => eapply exact_many1
  | |- exact anychar _ => apply exact_anychar
  | |- exact (chr _) _ => apply exact_char
  | |- exact (char_ _) _ => apply exact_char
  | |- exact (one_of _) _ => apply exact_one_of
  | |- exact (none_of _) _ => apply exact_none_of
  | |- exact (satisfy _) _ => apply exact_satisfy
  | |- exact (Nom.tag _) _ => apply exact_tag
  | |- exact line_ending _ => apply exact_line_ending
  | |- exact eof _ => apply exact_eof
  | |- exact (take_while _) _ => apply exact_take_while
  | |- exact (take_while1 _) _ => apply exact_take_while1
  | |- exact space0 _ => apply exact_take_while
  | |- exact space1 _ => apply exact_take_while1
  | |- exact alpha1 _ => apply exact_take_while1
  | |- exact alphanumeric1 _ => apply exact_take_while1
  | |- exact digit1 _ => apply exact_take_while1
  | |- exact hex_digit1 _ => apply exact_take_while1
  | |- exact (bind _ (fun x => match x with pair _ _ => _ end)) _ => eapply exact_bind_pair; [|intros ? ?]
  | |- exact (bind _ _) _ => eapply exact_bind; [|intro]
  | |- eats _ _ => eats
  end
with change_alt :=
  match goal with |- exact (alt (?p :: ?l)) _ => change (alt (p :: l)) with (or_else p (alt l)) end.
Ltac ex := repeat (cbv beta zeta iota; ex1).
Ltac lenlia := repeat (progress (cbn [List.length] in *; rewrite ?app_length in *)); unfold char, str in *; lia.
