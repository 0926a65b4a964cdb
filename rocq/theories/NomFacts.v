(** Consumption ([eats]) and fuel-independence ([rel]) of the combinators. *)
From Coq Require Import String.
From Verif Require Export ParserConfig.
Import ListNotations.
Open Scope list_scope.
Local Notation len := (@List.length _).

(** The remainder of a successful run is a suffix of the input; with [k],
    a proper one. *)
Definition eats {A} (k : bool) (p : parser A) : Prop :=
  forall s r a, p s = Ok r a -> exists c, s = c ++ r /\ (k = true -> c <> []).

(** On inputs of length at most [n] the parsers agree and do not run out of fuel. *)
Definition rel {A} (n : nat) (p q : parser A) : Prop :=
  forall s, len s <= n -> p s = q s /\ p s <> Oof.

(** A string-valued parser returns at most what it consumed. *)
Definition vlen {A} (p : parser (list A)) : Prop :=
  forall s r a, p s = Ok r a -> len a + len r <= len s.

Lemma eats_len : forall A k (p : parser A) s r a,
  eats k p -> p s = Ok r a -> len r <= len s.
Proof. intros A k p s r a H E. destruct (H _ _ _ E) as (c & -> & _). rewrite app_length. lia. Qed.
Lemma eats_lt : forall A (p : parser A) s r a,
  eats true p -> p s = Ok r a -> len r < len s.
Proof.
  intros A p s r a H E. destruct (H _ _ _ E) as (c & -> & Hc). rewrite app_length.
  specialize (Hc eq_refl). destruct c; [congruence|]. cbn. lia.
Qed.
Lemma eats_weaken : forall A k (p : parser A), eats k p -> eats false p.
Proof. intros A k p H s r a E. destruct (H _ _ _ E) as (c & -> & _). exists c. split; [reflexivity|discriminate]. Qed.

(** ** eats *)
Lemma eats_ret : forall A (a : A), eats false (ret a).
Proof. intros A a s r b E. injection E as <- <-. exists []. split; [reflexivity|discriminate]. Qed.
Lemma eats_fail : forall A k, eats k (@fail A).
Proof. intros A k s r b E. discriminate. Qed.
Lemma eats_bind : forall A B k1 k2 (p : parser A) (f : A -> parser B),
  eats k1 p -> (forall a, eats k2 (f a)) -> eats (k1 || k2) (bind p f).
Proof.
  intros A B k1 k2 p f Hp Hf s r b E. unfold bind in E.
  destruct (p s) as [r1 a1| |] eqn:E1; try discriminate.
  destruct (Hp _ _ _ E1) as (c1 & -> & H1). destruct (Hf _ _ _ _ E) as (c2 & -> & H2).
  exists (c1 ++ c2). split; [now rewrite app_assoc|]. intros Hk H.
  apply app_eq_nil in H as [-> ->]. apply orb_true_iff in Hk as [->| ->]; [now apply H1|now apply H2].
Qed.
Lemma eats_bind_l : forall A B (p : parser A) (f : A -> parser B),
  eats true p -> (forall a, eats false (f a)) -> eats true (bind p f).
Proof. intros. exact (eats_bind _ _ true false _ _ H H0). Qed.
Lemma eats_bind_r : forall A B (p : parser A) (f : A -> parser B),
  eats false p -> (forall a, eats true (f a)) -> eats true (bind p f).
Proof. intros. exact (eats_bind _ _ false true _ _ H H0). Qed.
Lemma eats_bind_f : forall A B (p : parser A) (f : A -> parser B),
  eats false p -> (forall a, eats false (f a)) -> eats false (bind p f).
Proof. intros. exact (eats_bind _ _ false false _ _ H H0). Qed.
Lemma eats_opt : forall A (p : parser A), eats false p -> eats false (opt p).
Proof.
  intros A p Hp s r a E. unfold opt in E. destruct (p s) eqn:E1; try discriminate; injection E as <- <-.
  - exact (Hp _ _ _ E1).
  - exists []. split; [reflexivity|discriminate].
Qed.
Lemma eats_not : forall A (p : parser A), eats false (not_ p).
Proof.
  intros A p s r a E. unfold not_ in E. destruct (p s) eqn:E1; try discriminate; injection E as <- <-.
  exists []. split; [reflexivity|discriminate].
Qed.
Lemma eats_peek : forall A (p : parser A), eats false (peek p).
Proof.
  intros A p s r a E. unfold peek in E. destruct (p s) eqn:E1; try discriminate; injection E as <- <-.
  exists []. split; [reflexivity|discriminate].
Qed.
Lemma eats_nested : forall A (p : parser A) c, eats false (nested p c).
Proof.
  intros A p c s r a E. unfold nested in E. destruct (p c) eqn:E1; try discriminate; injection E as <- <-.
  exists []. split; [reflexivity|discriminate].
Qed.
Lemma eats_recognize : forall A k (p : parser A), eats k p -> eats k (recognize p).
Proof.
  intros A k p Hp s r a E. unfold recognize in E. destruct (p s) eqn:E1; try discriminate; injection E as <- <-.
  exact (Hp _ _ _ E1).
Qed.
Lemma eats_or_else : forall A k (p q : parser A), eats k p -> eats k q -> eats k (or_else p q).
Proof.
  intros A k p q Hp Hq s r a E. unfold or_else in E. destruct (p s) eqn:E1; try discriminate.
  - injection E as <- <-. exact (Hp _ _ _ E1).
  - exact (Hq _ _ _ E).
Qed.
Lemma eats_alt : forall A k (l : list (parser A)), Forall (eats k) l -> eats k (alt l).
Proof.
  intros A k l H. induction H as [|p l Hp Hl IH]; [apply eats_fail|].
  cbn [alt]. destruct l; [exact Hp|]. now apply eats_or_else.
Qed.
Lemma eats_many0_go : forall A (p : parser A), eats false p ->
  forall f, eats false (many0_go f p).
Proof.
  intros A p Hp. induction f as [|f IH]; intros s r a E; cbn [many0_go] in E; [discriminate|].
  destruct (p s) as [r1 a1| |] eqn:E1; try discriminate.
  - destruct (_ =? _); [discriminate|].
    destruct (many0_go f p r1) as [r2 l| |] eqn:E2; try discriminate. injection E as <- <-.
    destruct (Hp _ _ _ E1) as (c1 & -> & _). destruct (IH _ _ _ E2) as (c2 & -> & _).
    exists (c1 ++ c2). split; [now rewrite app_assoc|discriminate].
  - injection E as <- <-. exists []. split; [reflexivity|discriminate].
Qed.
Lemma eats_many0 : forall A (p : parser A), eats false p -> eats false (many0 p).
Proof. intros A p Hp s r a. exact (eats_many0_go A p Hp _ s r a). Qed.
Lemma eats_many1 : forall A k (p : parser A), eats k p -> eats k (many1 p).
Proof.
  intros A k p Hp. unfold many1, pmap. rewrite <- (orb_false_r k).
  apply eats_bind; [exact Hp|]. intro. apply eats_bind_f; [|intro; apply eats_ret].
  apply eats_many0. eapply eats_weaken; eassumption.
Qed.
Lemma eats_many_m_n : forall A (p : parser A), eats false p ->
  forall max min, eats false (many_m_n min max p).
Proof.
  intros A p Hp. induction max as [|max IH]; intros min s r a E; cbn [many_m_n] in E.
  - injection E as <- <-. exists []. split; [reflexivity|discriminate].
  - destruct (p s) as [r1 a1| |] eqn:E1; try discriminate.
    + destruct (_ =? _); [discriminate|].
      destruct (many_m_n (pred min) max p r1) as [r2 l| |] eqn:E2; try discriminate. injection E as <- <-.
      destruct (Hp _ _ _ E1) as (c1 & -> & _). destruct (IH _ _ _ _ E2) as (c2 & -> & _).
      exists (c1 ++ c2). split; [now rewrite app_assoc|discriminate].
    + destruct min; [|discriminate]. injection E as <- <-. exists []. split; [reflexivity|discriminate].
Qed.
Lemma eats_many_m_n_S : forall A (p : parser A) min max, eats true p ->
  eats true (many_m_n (S min) (S max) p).
Proof.
  intros A p min max Hp s r a E. cbn [many_m_n] in E.
  destruct (p s) as [r1 a1| |] eqn:E1; try discriminate.
  destruct (_ =? _); [discriminate|].
  destruct (many_m_n (pred (S min)) max p r1) as [r2 l| |] eqn:E2; try discriminate. injection E as <- <-.
  destruct (Hp _ _ _ E1) as (c1 & -> & H1).
  destruct (eats_many_m_n A p (eats_weaken _ _ _ Hp) _ _ _ _ _ E2) as (c2 & -> & _).
  exists (c1 ++ c2). split; [now rewrite app_assoc|]. intros _ H. apply app_eq_nil in H as [-> _].
  now apply H1.
Qed.
Lemma eats_many_ge : forall A (p : parser A) min, eats true p -> eats true (many_ge (S min) p).
Proof. intros A p min Hp s r a E. exact (eats_many_m_n_S A p min _ Hp s r a E). Qed.
Lemma eats_sep_go : forall A B (sep : parser B) (p : parser A), eats false sep -> eats false p ->
  forall f, eats false (sep_go f sep p).
Proof.
  intros A B sep p Hs Hp. induction f as [|f IH]; intros s r a E; cbn [sep_go] in E; [discriminate|].
  destruct (sep s) as [r0 b| |] eqn:E0; try discriminate.
  - destruct (p r0) as [r1 a1| |] eqn:E1; try discriminate.
    + destruct (_ =? _); [discriminate|].
      destruct (sep_go f sep p r1) as [r2 l| |] eqn:E2; try discriminate. injection E as <- <-.
      destruct (Hs _ _ _ E0) as (c0 & -> & _).
      destruct (Hp _ _ _ E1) as (c1 & -> & _). destruct (IH _ _ _ E2) as (c2 & -> & _).
      exists (c0 ++ c1 ++ c2). split; [now rewrite !app_assoc|discriminate].
    + injection E as <- <-. exists []. split; [reflexivity|discriminate].
  - injection E as <- <-. exists []. split; [reflexivity|discriminate].
Qed.
Lemma eats_sep1 : forall A B k (sep : parser B) (p : parser A), eats false sep -> eats k p ->
  eats k (separated_list1 sep p).
Proof.
  intros A B k sep p Hs Hp. unfold separated_list1, pmap. rewrite <- (orb_false_r k).
  apply eats_bind; [exact Hp|]. intro. apply eats_bind_f; [|intro; apply eats_ret].
  intros s r b. apply eats_sep_go; [exact Hs|eapply eats_weaken; eassumption].
Qed.
Lemma eats_sep0 : forall A B (sep : parser B) (p : parser A), eats false sep -> eats false p ->
  eats false (separated_list0 sep p).
Proof.
  intros A B sep p Hs Hp s r a E. unfold separated_list0 in E.
  destruct (p s) as [r1 a1| |] eqn:E1; try discriminate.
  - destruct (Hp _ _ _ E1) as (c1 & -> & _).
    assert (X : eats false (pmap (cons a1) (fun s => sep_go (S (len s)) sep p s))).
    { apply eats_bind_f; [|intro; apply eats_ret]. intros ? ? ?. now apply eats_sep_go. }
    destruct (X _ _ _ E) as (c2 & -> & _). exists (c1 ++ c2). split; [now rewrite app_assoc|discriminate].
  - injection E as <- <-. exists []. split; [reflexivity|discriminate].
Qed.
Lemma eats_satisfy : forall f, eats true (satisfy f).
Proof.
  intros f s r a E. unfold satisfy in E. destruct s as [|c s]; [discriminate|].
  destruct (f c); [|discriminate]. injection E as <- <-. exists [c]. split; [reflexivity|discriminate].
Qed.
Lemma tag_go_spec : forall eqb t s r, tag_go eqb t s = Some r ->
  exists c, s = c ++ r /\ len c = len t.
Proof.
  induction t as [|x t IH]; intros s r E; cbn in E.
  - injection E as <-. now exists [].
  - destruct s as [|y s]; [discriminate|]. destruct (eqb x y); [|discriminate].
    destruct (IH _ _ E) as (c & -> & Hc). exists (y :: c). split; [reflexivity|]. cbn. now rewrite Hc.
Qed.
Lemma eats_tag_by : forall eqb x t, eats true (tag_by eqb (x :: t)).
Proof.
  intros eqb x t s r a E. unfold tag_by in E. destruct (tag_go eqb (x :: t) s) eqn:E1; [|discriminate].
  injection E as <- <-. destruct (tag_go_spec _ _ _ _ E1) as (c & -> & Hc). exists c. split; [reflexivity|].
  intros _ ->. discriminate.
Qed.
Lemma eats_tag_any : forall eqb t, eats false (tag_by eqb t).
Proof.
  intros eqb t s r a E. unfold tag_by in E. destruct (tag_go eqb t s) eqn:E1; [|discriminate].
  injection E as <- <-. destruct (tag_go_spec _ _ _ _ E1) as (c & -> & Hc). exists c. split; [reflexivity|discriminate].
Qed.
Lemma span_spec : forall f s a b, span f s = (a, b) -> s = a ++ b.
Proof.
  induction s as [|c s IH]; intros a b E; cbn in E; [now injection E as <- <-|].
  destruct (f c); [|now injection E as <- <-].
  destruct (span f s) as [a' b'] eqn:E'. injection E as <- <-. cbn. f_equal. now apply IH.
Qed.
Lemma eats_take_while : forall f, eats false (take_while f).
Proof.
  intros f s r a E. unfold take_while in E. destruct (span f s) as [x y] eqn:E'. injection E as <- <-.
  exists x. split; [now apply span_spec in E'|discriminate].
Qed.
Lemma eats_take_while1 : forall f, eats true (take_while1 f).
Proof.
  intros f s r a E. unfold take_while1 in E. destruct (span f s) as [x y] eqn:E'.
  destruct x; [discriminate|]. injection E as <- <-.
  eexists. split; [apply (span_spec _ _ _ _ E')|discriminate].
Qed.
Lemma eats_eof : eats false eof.
Proof.
  intros s r a E. unfold eof in E. destruct s; [|discriminate]. injection E as <- <-.
  exists []. split; [reflexivity|discriminate].
Qed.
Lemma eats_line_ending : eats true line_ending.
Proof. apply eats_alt. repeat constructor; apply eats_tag_by. Qed.
Lemma eats_not_line_ending : eats false not_line_ending.
Proof.
  intros s r a E. unfold not_line_ending in E.
  destruct (span _ s) as [x y] eqn:E'. apply span_spec in E' as ->.
  assert (r = y) as ->.
  { destruct y as [|c y]; [now injection E|]. destruct (N.eqb c 13); [|now injection E].
    destruct y as [|d y]; [discriminate|]. destruct (N.eqb d 10); [|discriminate]. now injection E. }
  exists x. split; [reflexivity|discriminate].
Qed.
Lemma eats_u64 : eats true u64.
Proof.
  intros s r a E. unfold u64 in E. destruct (span is_digit s) as [x y] eqn:E'.
  destruct x; [discriminate|]. destruct (_ <=? _)%N; [|discriminate]. injection E as <- <-.
  eexists. split; [apply (span_spec _ _ _ _ E')|discriminate].
Qed.

(** ** rel *)
Lemma rel_mono : forall A n m (p q : parser A), rel n p q -> m <= n -> rel m p q.
Proof. intros A n m p q H Hm s Hs. apply H. lia. Qed.
Lemma rel_ret : forall A n (a : A), rel n (ret a) (ret a).
Proof. intros A n a s _. split; [reflexivity|discriminate]. Qed.
Lemma rel_fail : forall A n, rel n (@fail A) fail.
Proof. intros A n s _. split; [reflexivity|discriminate]. Qed.
Lemma rel_bind_gen : forall A B n (p p' : parser A) (f f' : A -> parser B),
  rel n p p' ->
  (forall s r a, len s <= n -> p s = Ok r a -> exists m, len r <= m /\ rel m (f a) (f' a)) ->
  rel n (bind p f) (bind p' f').
Proof.
  intros A B n p p' f f' Hp Hf s Hs. unfold bind. destruct (Hp s Hs) as [E N]. rewrite <- E.
  destruct (p s) as [r a| |] eqn:E1; [|split; [reflexivity|discriminate]|now elim N].
  destruct (Hf _ _ _ Hs E1) as (m & Hm & Hr). exact (Hr r Hm).
Qed.
Lemma rel_bind : forall A B n (p p' : parser A) (f f' : A -> parser B),
  eats false p -> rel n p p' -> (forall a, rel n (f a) (f' a)) -> rel n (bind p f) (bind p' f').
Proof.
  intros A B n p p' f f' He Hp Hf. apply rel_bind_gen; [exact Hp|].
  intros s r a Hs E. exists n. split; [|apply Hf]. apply (eats_len _ _ _ _ _ _ He) in E. lia.
Qed.
(** after a parser that consumes, one character less is left *)
Lemma rel_bind_t : forall A B n (p p' : parser A) (f f' : A -> parser B),
  eats true p -> rel n p p' -> (forall a m, S m = n -> rel m (f a) (f' a)) -> rel n (bind p f) (bind p' f').
Proof.
  intros A B n p p' f f' He Hp Hf. apply rel_bind_gen; [exact Hp|].
  intros s r a Hs E. apply (eats_lt _ _ _ _ _ He) in E. destruct n as [|n]; [lia|].
  exists n. split; [lia|]. now apply Hf.
Qed.
Lemma rel_bind_v : forall A B n (p p' : parser (list A)) (f f' : list A -> parser B),
  vlen p -> rel n p p' -> (forall a, len a <= n -> rel n (f a) (f' a)) -> rel n (bind p f) (bind p' f').
Proof.
  intros A B n p p' f f' He Hp Hf. apply rel_bind_gen; [exact Hp|].
  intros s r a Hs E. apply He in E. exists n. split; [lia|]. apply Hf. lia.
Qed.
Lemma rel_opt : forall A n (p q : parser A), rel n p q -> rel n (opt p) (opt q).
Proof.
  intros A n p q H s Hs. unfold opt. destruct (H s Hs) as [E N]. rewrite <- E.
  destruct (p s); split; try reflexivity; try discriminate. now elim N.
Qed.
Lemma rel_not : forall A n (p q : parser A), rel n p q -> rel n (not_ p) (not_ q).
Proof.
  intros A n p q H s Hs. unfold not_. destruct (H s Hs) as [E N]. rewrite <- E.
  destruct (p s); split; try reflexivity; try discriminate. now elim N.
Qed.
Lemma rel_peek : forall A n (p q : parser A), rel n p q -> rel n (peek p) (peek q).
Proof.
  intros A n p q H s Hs. unfold peek. destruct (H s Hs) as [E N]. rewrite <- E.
  destruct (p s); split; try reflexivity; try discriminate. now elim N.
Qed.
Lemma rel_recognize : forall A n (p q : parser A), rel n p q -> rel n (recognize p) (recognize q).
Proof.
  intros A n p q H s Hs. unfold recognize. destruct (H s Hs) as [E N]. rewrite <- E.
  destruct (p s); split; try reflexivity; try discriminate. now elim N.
Qed.
Lemma rel_nested : forall A n m (p q : parser A) c, rel m p q -> len c <= m -> rel n (nested p c) (nested q c).
Proof.
  intros A n m p q c H Hc s _. unfold nested. destruct (H c Hc) as [E N]. rewrite <- E.
  destruct (p c); split; try reflexivity; try discriminate. now elim N.
Qed.
Lemma rel_or_else : forall A n (p q p' q' : parser A), rel n p p' -> rel n q q' ->
  rel n (or_else p q) (or_else p' q').
Proof.
  intros A n p q p' q' Hp Hq s Hs. unfold or_else. destruct (Hp s Hs) as [E N]. rewrite <- E.
  destruct (p s) eqn:E1; [split; [reflexivity|discriminate]|exact (Hq s Hs)|now elim N].
Qed.
Lemma rel_alt : forall A n (l l' : list (parser A)), Forall2 (rel n) l l' -> rel n (alt l) (alt l').
Proof.
  intros A n l l' H. induction H as [|p p' l l' Hp Hl IH]; [apply rel_fail|].
  cbn [alt]. destruct Hl; [exact Hp|]. now apply rel_or_else.
Qed.
Lemma rel_many0_go : forall A n (p p' : parser A), eats false p -> rel n p p' ->
  forall f f' s, len s <= n -> len s < f -> len s < f' ->
  many0_go f p s = many0_go f' p' s /\ many0_go f p s <> Oof.
Proof.
  intros A n p p' He H. induction f as [|f IH]; intros f' s Hs Hf Hf'; [lia|].
  destruct f' as [|f']; [lia|]. cbn [many0_go]. destruct (H s Hs) as [E N]. rewrite <- E.
  destruct (p s) as [r a| |] eqn:E1; [|split; [reflexivity|discriminate]|now elim N].
  destruct (Nat.eqb_spec (len r) (len s)); [split; [reflexivity|discriminate]|].
  pose proof (eats_len _ _ _ _ _ _ He E1).
  destruct (IH f' r) as [E2 N2]; [lia|lia|lia|]. rewrite <- E2.
  destruct (many0_go f p r); split; try reflexivity; try discriminate. now elim N2.
Qed.
Lemma rel_many0 : forall A n (p p' : parser A), eats false p -> rel n p p' -> rel n (many0 p) (many0 p').
Proof. intros A n p p' He H s Hs. unfold many0. eapply rel_many0_go; try eassumption; lia. Qed.
Lemma rel_many1 : forall A n (p p' : parser A), eats false p -> rel n p p' -> rel n (many1 p) (many1 p').
Proof.
  intros. unfold many1, pmap. apply rel_bind; [assumption|assumption|]. intro.
  apply rel_bind; [now apply eats_many0|now apply rel_many0|]. intro. apply rel_ret.
Qed.
Lemma rel_many_m_n : forall A n (p p' : parser A), eats false p -> rel n p p' ->
  forall max min, rel n (many_m_n min max p) (many_m_n min max p').
Proof.
  intros A n p p' He H. induction max as [|max IH]; intros min s Hs; cbn [many_m_n];
    [split; [reflexivity|discriminate]|].
  destruct (H s Hs) as [E N]. rewrite <- E.
  destruct (p s) as [r a| |] eqn:E1; [|destruct min; split; try reflexivity; discriminate|now elim N].
  destruct (_ =? _); [split; [reflexivity|discriminate]|].
  pose proof (eats_len _ _ _ _ _ _ He E1).
  destruct (IH (pred min) r) as [E2 N2]; [lia|]. rewrite <- E2.
  destruct (many_m_n (pred min) max p r); split; try reflexivity; try discriminate. now elim N2.
Qed.
Lemma rel_many_ge : forall A n min (p p' : parser A), eats false p -> rel n p p' ->
  rel n (many_ge min p) (many_ge min p').
Proof. intros A n min p p' He H s Hs. exact (rel_many_m_n A n p p' He H _ _ s Hs). Qed.
Lemma rel_sep_go : forall A B n (sep sep' : parser B) (p p' : parser A),
  eats false sep -> rel n sep sep' -> eats false p -> rel n p p' ->
  forall f f' s, len s <= n -> len s < f -> len s < f' ->
  sep_go f sep p s = sep_go f' sep' p' s /\ sep_go f sep p s <> Oof.
Proof.
  intros A B n sep sep' p p' Hse Hsep He H.
  induction f as [|f IH]; intros f' s Hs Hf Hf'; [lia|].
  destruct f' as [|f']; [lia|]. cbn [sep_go]. destruct (Hsep s Hs) as [E0 N0]. rewrite <- E0.
  destruct (sep s) as [r0 b| |] eqn:E0'; [|split; [reflexivity|discriminate]|now elim N0].
  pose proof (eats_len _ _ _ _ _ _ Hse E0').
  destruct (H r0) as [E N]; [lia|]. rewrite <- E.
  destruct (p r0) as [r a| |] eqn:E1; [|split; [reflexivity|discriminate]|now elim N].
  destruct (Nat.eqb_spec (len r) (len s)); [split; [reflexivity|discriminate]|].
  pose proof (eats_len _ _ _ _ _ _ He E1).
  destruct (IH f' r) as [E2 N2]; [lia|lia|lia|]. rewrite <- E2.
  destruct (sep_go f sep p r); split; try reflexivity; try discriminate. now elim N2.
Qed.
Lemma rel_sep1 : forall A B n (sep sep' : parser B) (p p' : parser A),
  eats false sep -> rel n sep sep' -> eats false p -> rel n p p' ->
  rel n (separated_list1 sep p) (separated_list1 sep' p').
Proof.
  intros. unfold separated_list1, pmap. apply rel_bind; [assumption|assumption|]. intro.
  apply rel_bind; [intros ? ? ?; now apply eats_sep_go| |intro; apply rel_ret].
  intros s Hs. eapply rel_sep_go; try eassumption; lia.
Qed.
Lemma rel_sep0 : forall A B n (sep sep' : parser B) (p p' : parser A),
  eats false sep -> rel n sep sep' -> eats false p -> rel n p p' ->
  rel n (separated_list0 sep p) (separated_list0 sep' p').
Proof.
  intros A B n sep sep' p p' Hse Hsep He H s Hs. unfold separated_list0.
  destruct (H s Hs) as [E N]. rewrite <- E.
  destruct (p s) as [r a| |] eqn:E1; [|split; [reflexivity|discriminate]|now elim N].
  pose proof (eats_len _ _ _ _ _ _ He E1).
  assert (X : rel n (pmap (cons a) (fun s => sep_go (S (len s)) sep p s))
                    (pmap (cons a) (fun s => sep_go (S (len s)) sep' p' s))).
  { apply rel_bind; [intros ? ? ?; now apply eats_sep_go| |intro; apply rel_ret].
    intros s1 Hs1. eapply rel_sep_go; try eassumption; lia. }
  apply X. lia.
Qed.
Lemma rel_satisfy : forall n f, rel n (satisfy f) (satisfy f).
Proof. intros n f s _. split; [reflexivity|]. destruct s as [|c s]; cbn; [discriminate|]. destruct (f c); discriminate. Qed.
Lemma rel_tag_by : forall n eqb t, rel n (tag_by eqb t) (tag_by eqb t).
Proof. intros n eqb t s _. split; [reflexivity|]. unfold tag_by. destruct tag_go; discriminate. Qed.
Lemma rel_take_while : forall n f, rel n (take_while f) (take_while f).
Proof. intros n f s _. split; [reflexivity|]. unfold take_while. destruct span; discriminate. Qed.
Lemma rel_take_while1 : forall n f, rel n (take_while1 f) (take_while1 f).
Proof. intros n f s _. split; [reflexivity|]. unfold take_while1. destruct span as [[|] ?]; discriminate. Qed.
Lemma rel_eof : forall n, rel n eof eof.
Proof. intros n s _. split; [reflexivity|]. destruct s; discriminate. Qed.
Lemma rel_line_ending : forall n, rel n line_ending line_ending.
Proof. intros n. apply rel_alt. repeat (apply Forall2_cons; [apply rel_tag_by|]). constructor. Qed.
Lemma rel_not_line_ending : forall n, rel n not_line_ending not_line_ending.
Proof.
  intros n s _. split; [reflexivity|]. unfold not_line_ending. destruct span as [x [|c y]]; [discriminate|].
  destruct (N.eqb c 13); [|discriminate]. destruct y as [|d y]; [discriminate|]. destruct (N.eqb d 10); discriminate.
Qed.
Lemma rel_u64 : forall n, rel n u64 u64.
Proof.
  intros n s _. split; [reflexivity|]. unfold u64. destruct span as [[|] ?]; [discriminate|].
  destruct (_ <=? _)%N; discriminate.
Qed.

(** ** vlen *)
Lemma vlen_recognize : forall A (p : parser A), eats false p -> vlen (recognize p).
Proof.
  intros A p Hp s r a E. unfold recognize in E. destruct (p s) eqn:E1; try discriminate; injection E as <- <-.
  rewrite firstn_length. apply (eats_len _ _ _ _ _ _ Hp) in E1. lia.
Qed.
Lemma vlen_many0 : forall A (p : parser A), eats false p -> vlen (many0 p).
Proof.
  intros A p Hp s. unfold many0. generalize (S (len s)) as f. intros f. revert s.
  induction f as [|f IH]; intros s r a E; cbn [many0_go] in E; [discriminate|].
  destruct (p s) as [r1 a1| |] eqn:E1; try discriminate.
  - destruct (Nat.eqb_spec (len r1) (len s)); [discriminate|].
    destruct (many0_go f p r1) as [r2 l| |] eqn:E2; try discriminate. injection E as <- <-.
    apply IH in E2. apply (eats_len _ _ _ _ _ _ Hp) in E1. cbn. lia.
  - injection E as <- <-. cbn. lia.
Qed.
Lemma vlen_many1 : forall A (p : parser A), eats true p -> vlen (many1 p).
Proof.
  intros A p Hp s r a E. unfold many1, pmap, bind, ret in E.
  destruct (p s) as [r1 a1| |] eqn:E1; try discriminate.
  destruct (many0 p r1) as [r2 l| |] eqn:E2; try discriminate. injection E as <- <-.
  apply (eats_lt _ _ _ _ _ Hp) in E1. apply (vlen_many0 _ _ (eats_weaken _ _ _ Hp)) in E2. cbn. lia.
Qed.
Lemma vlen_bind_ret : forall A (p : parser A) B (f : A -> list B) q,
  (forall s r a, p s = Ok r a -> len (f a) + len r <= len s) ->
  (forall a s r b, q a s = Ok r b -> b = f a /\ len r <= len s) ->
  vlen (bind p q).
Proof.
  intros A p B f q Hp Hq s r b E. unfold bind in E. destruct (p s) as [r1 a1| |] eqn:E1; try discriminate.
  destruct (Hq _ _ _ _ E) as [-> H]. apply Hp in E1. lia.
Qed.
Lemma vlen_verify : forall A (p : parser (list A)) f, vlen p -> vlen (verify p f).
Proof.
  intros A p f Hp s r a E. unfold verify, bind in E. destruct (p s) as [r1 a1| |] eqn:E1; try discriminate.
  destruct (f a1); [|discriminate]. injection E as <- <-. now apply Hp.
Qed.
Lemma vlen_take_while : forall f, vlen (take_while f).
Proof.
  intros f s r a E. unfold take_while in E. destruct (span f s) as [x y] eqn:E'. injection E as <- <-.
  apply span_spec in E' as ->. rewrite app_length. lia.
Qed.
Lemma vlen_alt : forall A (l : list (parser (list A))), Forall vlen l -> vlen (alt l).
Proof.
  intros A l H. induction H as [|p l Hp Hl IH]; [intros ? ? ? E; discriminate|].
  cbn [alt]. destruct l; [exact Hp|]. intros s r a E. unfold or_else in E.
  destruct (p s) eqn:E1; try discriminate; [injection E as <- <-; now apply Hp|now apply IH].
Qed.
Lemma vlen_not_line_ending : vlen not_line_ending.
Proof.
  intros s r a E. unfold not_line_ending in E.
  destruct (span _ s) as [x y] eqn:E'. apply span_spec in E' as ->.
  assert (r = y /\ a = x) as [-> ->].
  { destruct y as [|c y]; [now injection E|]. destruct (N.eqb c 13); [|now injection E].
    destruct y as [|d y]; [discriminate|]. destruct (N.eqb d 10); [|discriminate]. now injection E. }
  rewrite app_length. lia.
Qed.
Lemma vlen_eof : vlen eof.
Proof. intros s r a E. unfold eof in E. destruct s; [|discriminate]. injection E as <- <-. cbn. lia. Qed.
Lemma vlen_terminated : forall A B (p : parser (list A)) (q : parser B), vlen p -> eats false q -> vlen (terminated p q).
Proof.
  intros A B p q Hp Hq s r a E. unfold terminated, value, pmap, bind, ret in E.
  destruct (p s) as [r1 a1| |] eqn:E1; try discriminate.
  destruct (q r1) as [r2 a2| |] eqn:E2; try discriminate. injection E as <- <-.
  apply Hp in E1. apply (eats_len _ _ _ _ _ _ Hq) in E2. lia.
Qed.
Lemma vlen_preceded : forall A B (p : parser A) (q : parser (list B)), eats false p -> vlen q -> vlen (preceded p q).
Proof.
  intros A B p q Hp Hq s r a E. unfold preceded, bind in E.
  destruct (p s) as [r1 a1| |] eqn:E1; try discriminate. apply Hq in E.
  apply (eats_len _ _ _ _ _ _ Hp) in E1. lia.
Qed.

(** ** Automation *)
Create HintDb pars.
Lemma Forall_cons1 : forall A (P : A -> Prop) x l, P x -> Forall P l -> Forall P (x :: l).
Proof. now constructor. Qed.
Lemma Forall2_cons1 : forall A B (R : A -> B -> Prop) x y l l', R x y -> Forall2 R l l' -> Forall2 R (x :: l) (y :: l').
Proof. now constructor. Qed.
Lemma eats_conditional : forall A k (b : behavior A) d p, eats k p -> eats k (conditional b d p).
Proof.
  intros A k b d p H. destruct b; try apply eats_fail; unfold conditional, value, pmap;
    rewrite <- (orb_false_r k); (apply eats_bind; [exact H|intro; apply eats_ret]).
Qed.
Lemma eats_conditional_unit : forall A k (b : behavior A) p, eats k p -> eats k (conditional_unit b p).
Proof. intros A k b p H. destruct b; try exact H. apply eats_fail. Qed.
Lemma eats_conditional_vec : forall k b p, eats k p -> eats k (conditional_block_vec b p).
Proof.
  intros k b p H. destruct b; try exact H; [apply eats_fail|]. unfold conditional_block_vec, value, pmap.
  rewrite <- (orb_false_r k). apply eats_bind; [exact H|intro; apply eats_ret].
Qed.
Lemma rel_conditional : forall A n (b : behavior A) d p q, eats false p -> rel n p q -> rel n (conditional b d p) (conditional b d q).
Proof.
  intros A n b d p q He H. destruct b; try apply rel_fail; (apply rel_bind; [exact He|exact H|intro; apply rel_ret]).
Qed.
Lemma rel_conditional_unit : forall A n (b : behavior A) p q, rel n p q -> rel n (conditional_unit b p) (conditional_unit b q).
Proof. intros A n b p q H. destruct b; try exact H. apply rel_fail. Qed.
Lemma rel_conditional_vec : forall n b p q, eats false p -> rel n p q -> rel n (conditional_block_vec b p) (conditional_block_vec b q).
Proof.
  intros n b p q He H. destruct b; try exact H; [apply rel_fail|]. apply rel_bind; [exact He|exact H|intro; apply rel_ret].
Qed.

Ltac unf_goal :=
  unfold conditional_block, conditional_inline, pmap, value, verify, map_opt, preceded, terminated, delimited, pair_, p_unit,
    line_terminated, tag, tag_no_case, chr, char_, anychar, one_of, none_of, space0, space1,
    multispace0, alpha1, alphanumeric1, digit1, hex_digit1.

(** one step of a syntax-directed proof of [eats k p]; [k] is a constant *)
Ltac eats1 :=
  match goal with
  | |- Forall _ [] => constructor
  | |- Forall _ (_ :: _) => apply Forall_cons1
  | |- eats false (ret _) => apply eats_ret
  | |- eats _ fail => apply eats_fail
  | |- eats true (bind _ _) =>
      first [ apply eats_bind_l; [solve [eats_]|intros]
            | apply eats_bind_r; [|intros] ]
  | |- eats false (bind _ _) => apply eats_bind_f; [|intros]
  | |- eats false (opt _) => apply eats_opt
  | |- eats false (not_ _) => apply eats_not
  | |- eats false (peek _) => apply eats_peek
  | |- eats false (nested _ _) => apply eats_nested
  | |- eats _ (recognize _) => apply eats_recognize
  | |- eats _ (or_else _ _) => apply eats_or_else
  | |- eats _ (alt _) => apply eats_alt
  | |- eats false (many0 _) => apply eats_many0
  | |- eats _ (many1 _) => apply eats_many1
  | |- eats true (many_m_n (S _) (S _) _) => apply eats_many_m_n_S
  | |- eats false (many_m_n _ _ _) => apply eats_many_m_n
  | |- eats true (many_ge (S _) _) => apply eats_many_ge
  | |- eats false (many_ge (S _) _) => apply (eats_weaken _ true), eats_many_ge
  | |- eats _ (separated_list1 _ _) => apply eats_sep1
  | |- eats false (separated_list0 _ _) => apply eats_sep0
  | |- eats true (satisfy _) => apply eats_satisfy
  | |- eats false (satisfy _) => apply (eats_weaken _ true), eats_satisfy
  | |- eats true (tag_by _ _) => apply eats_tag_by
  | |- eats false (tag_by _ _) => apply eats_tag_any
  | |- eats false (take_while _) => apply eats_take_while
  | |- eats true (take_while1 _) => apply eats_take_while1
  | |- eats false (take_while1 _) => apply (eats_weaken _ true), eats_take_while1
  | |- eats false eof => apply eats_eof
  | |- eats true line_ending => apply eats_line_ending
  | |- eats false line_ending => apply (eats_weaken _ true), eats_line_ending
  | |- eats false not_line_ending => apply eats_not_line_ending
  | |- eats true u64 => apply eats_u64
  | |- eats false u64 => apply (eats_weaken _ true), eats_u64
  | |- eats _ (conditional _ _ _) => apply eats_conditional
  | |- eats _ (conditional_unit _ _) => apply eats_conditional_unit
  | |- eats _ (conditional_block_vec _ _) => apply eats_conditional_vec
  | |- eats _ (if ?b then _ else _) => destruct b
  | |- eats _ (match ?x with _ => _ end) => destruct x
  | _ => solve [auto with pars nocore]
  | |- eats false ?p => apply (eats_weaken _ true); solve [auto with pars nocore]
  end
with eats_ := repeat (progress unf_goal || eats1).

Ltac eats := unf_goal; cbv beta zeta; repeat (progress unf_goal || eats1).

Ltac rel1 :=
  match goal with
  | |- Forall2 _ [] [] => constructor
  | |- Forall2 _ (_ :: _) (_ :: _) => apply Forall2_cons1
  | |- rel _ (ret _) _ => apply rel_ret
  | |- rel _ fail _ => apply rel_fail
  | |- rel _ (opt _) _ => apply rel_opt
  | |- rel _ (not_ _) _ => apply rel_not
  | |- rel _ (peek _) _ => apply rel_peek
  | |- rel _ (recognize _) _ => apply rel_recognize
  | |- rel _ (or_else _ _) _ => apply rel_or_else
  | |- rel _ (alt _) _ => apply rel_alt
  | |- rel _ (many0 _) _ => apply rel_many0; [solve [eats]|]
  | |- rel _ (many1 _) _ => apply rel_many1; [solve [eats]|]
  | |- rel _ (many_m_n _ _ _) _ => apply rel_many_m_n; [solve [eats]|]
  | |- rel _ (many_ge _ _) _ => apply rel_many_ge; [solve [eats]|]
  | |- rel _ (separated_list1 _ _) _ => apply rel_sep1; [solve [eats]| |solve [eats]|]
  | |- rel _ (separated_list0 _ _) _ => apply rel_sep0; [solve [eats]| |solve [eats]|]
  | |- rel _ (satisfy _) _ => apply rel_satisfy
  | |- rel _ (tag_by _ _) _ => apply rel_tag_by
  | |- rel _ (take_while _) _ => apply rel_take_while
  | |- rel _ (take_while1 _) _ => apply rel_take_while1
  | |- rel _ eof _ => apply rel_eof
  | |- rel _ line_ending _ => apply rel_line_ending
  | |- rel _ not_line_ending _ => apply rel_not_line_ending
  | |- rel _ u64 _ => apply rel_u64
  | |- rel _ (conditional _ _ _) _ => apply rel_conditional; [solve [eats]|]
  | |- rel _ (conditional_unit _ _) _ => apply rel_conditional_unit
  | |- rel _ (conditional_block_vec _ _) _ => apply rel_conditional_vec; [solve [eats]|]
  | _ => solve [auto with pars nocore]
  | |- rel _ (bind _ _) _ => apply rel_bind; [solve [eats]| |intros]
  | |- rel _ (if ?b then _ else _) _ => destruct b
  | |- rel _ (match ?x with _ => _ end) _ => destruct x
  end.
Ltac rel := unf_goal; cbv beta zeta; repeat (progress unf_goal || rel1).
