(** The inline parser computes the inline grammar: leaf constructs. *)
From Coq Require Import String.
From Verif Require Import SpecParser Nom NomFacts ParserLeaf ParserTotal ParserCode ParserInline ParserInlineFacts SpecInline SyntaxFacts.
Import ListNotations.
Open Scope list_scope.
Local Notation len := (@List.length _).

Lemma all_app : forall f a b, all f (a ++ b) <-> all f a /\ all f b.
Proof. intros. apply Forall_app. Qed.
Lemma all_ext : forall f g, (forall c, f c = g c) -> forall s, all f s <-> all g s.
Proof. intros f g E s. split; apply Forall_impl; intro c; now rewrite E. Qed.
Lemma not_first_ext : forall f g, (forall c, f c = g c) -> forall s, not_first f s <-> not_first g s.
Proof. intros f g E s. unfold not_first. split; intros H c X; [rewrite <- E|rewrite E]; auto. Qed.
Lemma not_first_app : forall f c s, f c = false -> not_first f (c :: s). Proof. intros. now apply not_first_cons. Qed.

(** ** Autolinks *)
Lemma exact_scheme : exact p_scheme (fun s v r => exists c a, v = c :: a /\ s = v ++ r /\ is_alpha c = true /\ a <> [] /\ all scheme_char a /\ not_first scheme_char r).
Proof.
  unfold p_scheme. eapply exact_iff; [ex|]. intros s v r. cbv beta. split.
  - intros (E & [c a] & m & (X & Y) & (N & Z & W)). cbn [fst snd] in *. subst s m. rewrite app_comm_cons in X. apply app_inv_tail in X as ->.
    exists c, a. auto.
  - intros (c & a & -> & -> & H & N & Z & W). split; [reflexivity|]. exists (c, a), (a ++ r). cbn. auto.
Qed.
Lemma uri_class : forall c, negb (is_ascii_control c) && negb (N.eqb c 32) && negb (N.eqb c (ch "<")) && negb (N.eqb c (ch ">")) = uri_char c.
Proof.
  intro c. unfold is_ascii_control, uri_char. cbn [existsb lit map]. 
  change (lit "<>") with [60%N; 62%N]. cbn [existsb]. change (ch "<") with 60%N. change (ch ">") with 62%N.
  destruct (N.eqb_spec c 127), (N.eqb_spec c 32), (N.eqb_spec c 60), (N.eqb_spec c 62), (N.ltb_spec c 32), (N.ltb_spec 32 c); cbn; try reflexivity; exfalso; lia.
Qed.
Lemma exact_uri : exact p_uri (fun s v r => s = v ++ r /\ uri v /\ not_first uri_char r).
Proof.
  unfold p_uri. eapply exact_iff; [ex; apply exact_scheme|]. intros s v r. cbv beta. split.
  - intros ([a b] & (m & (m' & x & (c & t & E1 & E2 & Hc & Ht & Hs & Hn) & -> & E3) & E4 & H4 & H5) & ->). cbn [fst snd] in *.
    subst a s m' m. rewrite (all_ext _ _ uri_class) in H4. rewrite (not_first_ext _ _ uri_class) in H5.
    split; [cbn; now rewrite <- !app_assoc|]. split; [|exact H5]. exists c, t, b. now cbn.
  - intros (-> & (c & a & b & -> & Hc & Ha & H1 & H2) & H3).
    exists (c :: a, b). split; [|reflexivity]. exists (b ++ r). cbn [fst snd]. split.
    + exists (lit ":" ++ b ++ r), (ch ":"). split; [|split; reflexivity]. exists c, a. cbn. rewrite <- !app_assoc. repeat (split; auto).
      now apply not_first_cons.
    + rewrite (all_ext _ _ uri_class), (not_first_ext _ _ uri_class). auto.
Qed.
Lemma app_split_class : forall (f : char -> bool) x a a' b b', f x = false -> all f a -> all f a' ->
  a ++ x :: b = a' ++ x :: b' -> a = a' /\ b = b'.
Proof.
  intros f x. induction a as [|c a IH]; intros [|c' a'] b b' Hx H H' E; cbn in E.
  - now injection E as ->.
  - injection E as -> _. inversion H'; congruence.
  - injection E as -> _. inversion H; congruence.
  - injection E as -> E. inversion H; inversion H'; subst. destruct (IH a' b b') as [-> ->]; auto.
Qed.
Lemma class_prefix : forall (f : char -> bool) x A q P r, all f P -> f x = false -> A ++ x :: q = P ++ r -> exists p', A = P ++ p'.
Proof.
  intros f x A q P. revert A. induction P as [|z P IH]; intros A r Y F E; [now exists A|].
  destruct A as [|z' A]; cbn in E; injection E as E1 E; subst; inversion Y; [congruence|]; subst.
  destruct (IH A r) as [p' ->]; auto. now exists p'.
Qed.
Lemma exact_email : exact p_email (fun s v r => s = v ++ r /\ email v /\ not_first host_char r).
Proof.
  unfold p_email. eapply exact_iff; [ex|]. intros s v r. cbv beta. split.
  - intros (E & [a [x b]] & m & (N & E1 & H1 & H2) & m' & [Ex E2] & N' & E3 & H3 & H4). cbn [fst snd] in *. subst x s m m'.
    change (a ++ ch "@" :: b ++ r) with (a ++ (lit "@" ++ b) ++ r) in E1. rewrite app_assoc in E1. apply app_inv_tail in E1 as ->.
    split; [reflexivity|]. split; [|exact H4]. now exists a, b.
  - intros (-> & (a & b & -> & Na & Nb & H1 & H2) & H3). split; [reflexivity|].
    exists (a, (ch "@", b)), (lit "@" ++ b ++ r). cbn [fst snd]. split; [|exists (b ++ r); auto].
    split; [exact Na|]. split; [now rewrite <- !app_assoc|]. split; [exact H1|]. now apply not_first_cons.
Qed.
Lemma exact_autolink : exact p_autolink autolink_at.
Proof.
  unfold p_autolink. eapply exact_iff; [ex; [apply exact_uri|apply exact_email]|]. intros s u r. cbv beta. unfold autolink_at. split.
  - intros (x & m1 & m2 & y & [-> ->] & H & -> & ->). destruct H as [(-> & H & _)|(_ & -> & H & _)]; (split; [reflexivity|]); [now left|now right].
  - intros [-> H]. exists (ch "<"), (u ++ lit ">" ++ r), (lit ">" ++ r), (ch ">"). split; [auto|]. split; [|auto].
    destruct H as [H|H]; [left; split; [reflexivity|]; split; [exact H|now apply not_first_cons]|]. right. split.
    + intros (v & m & E & (c & a & b & -> & Hc & Ha & H1 & H2) & H3). destruct H as (a' & b' & -> & Na & Nb & H1' & H2').
      assert (Y : all (fun c => negb (N.eqb c (ch ":"))) (a' ++ lit "@" ++ b' ++ lit ">")).
      { rewrite !all_app. split; [|split; [now repeat constructor|split; [|now repeat constructor]]].
        - revert H1'. apply Forall_impl. intros z. unfold user_char. intro F. destruct (N.eqb_spec z (ch ":")) as [->|]; [discriminate F|reflexivity].
        - revert H2'. apply Forall_impl. intros z. unfold host_char. intro F. destruct (N.eqb_spec z (ch ":")) as [->|]; [discriminate F|reflexivity]. }
      destruct (class_prefix _ (ch ":") (c :: a) (b ++ m) _ r Y) as [p' X]; [reflexivity| |].
      { change ((c :: a) ++ ch ":" :: b ++ m) with (((c :: a) ++ lit ":" ++ b ++ m)). rewrite !app_assoc in *. symmetry. exact E. }
      assert (Z : In (ch ">") (c :: a)) by (rewrite X, !in_app_iff; left; right; right; right; now left).
      destruct Z as [Z|Z]; [subst c; discriminate Hc|]. unfold all in H1. rewrite Forall_forall in H1. specialize (H1 _ Z). discriminate H1.
    + split; [reflexivity|]. split; [exact H|now apply not_first_cons].
Qed.

(** ** Titles *)
Lemma many_of_ext : forall A (R Q : str -> A -> str -> Prop), (forall s a r, R s a r <-> Q s a r) ->
  forall s l r, many_of R s l r <-> many_of Q s l r.
Proof.
  intros A R Q E s l r. split; intro H; induction H as [s N|s a m l r X L Y IH].
  - apply many_stop. intros (a & r & X). apply N. exists a, r. now apply E.
  - apply many_step with m; [now apply E|exact L|exact IH].
  - apply many_stop. intros (a & r & X). apply N. exists a, r. now apply E.
  - apply many_step with m; [now apply E|exact L|exact IH].
Qed.
Definition title_unit (close : char) (s : str) (c : char) (r : str) : Prop :=
  s = ch "\" :: c :: r \/ (s = c :: r /\ c <> close /\ c <> ch "\").
Lemma exact_title_inner : forall close, exact (p_title_inner close) (many_of (title_unit close)).
Proof.
  intro close. unfold p_title_inner, p_escaped_any. eapply exact_iff; [ex|]. apply many_of_ext. intros s c r. unfold title_unit. split.
  - intros [(x & m & [-> ->] & ->)|(N & -> & H)]; [now left|]. right. cbn in H. intuition.
  - intros [->|(-> & H1 & H2)]; [left; exists (ch "\"), (c :: r); auto|]. right. split.
    + intros (a & r' & x & m & [-> E] & _). injection E as -> _. now apply H2.
    + split; [reflexivity|]. cbn. intuition.
Qed.
Lemma title_units : forall close s t r, close <> ch "\" ->
  (many_of (title_unit close) s t (close :: r) <-> exists raw, title_text close raw t /\ s = raw ++ close :: r).
Proof.
  intros close s t r Hc. split.
  - intro H. remember (close :: r) as q. induction H as [s N|s c m l r' X L Y IH]; subst.
    + exists []. split; [constructor|reflexivity].
    + destruct (IH eq_refl) as (raw & H & ->). destruct X as [->|(-> & H1 & H2)].
      * exists (ch "\" :: c :: raw). split; [now constructor|reflexivity].
      * exists (c :: raw). split; [now constructor|reflexivity].
  - intros (raw & H & ->). induction H as [|c s t H IH|c s t H1 H2 H IH]; cbn [app].
    + apply many_stop. intros (a & r' & [E|(E & H1 & H2)]); injection E as E1 _; congruence.
    + eapply many_step; [left; reflexivity|cbn; lia|exact IH].
    + eapply many_step; [right; split; [reflexivity|auto]|cbn; lia|exact IH].
Qed.
Lemma exact_link_title : exact p_link_title title_at.
Proof.
  unfold p_link_title. eapply exact_iff; [ex; apply exact_title_inner|]. intros s t r. cbv beta. unfold title_at. 
  assert (X : forall o c, c <> ch "\" -> ((exists a m1 m2 c0, (a = o /\ s = o :: m1) /\ many_of (title_unit c) m1 t m2 /\ c0 = c /\ m2 = c :: r)
     <-> exists raw, title_text c raw t /\ s = o :: raw ++ c :: r)).
  { intros o c Hc. split.
    - intros (a & m1 & m2 & c0 & [-> ->] & H & -> & ->). apply title_units in H as (raw & H & ->); [|exact Hc]. eauto.
    - intros (raw & H & ->). exists o, (raw ++ c :: r), (c :: r), c. repeat split. apply title_units; eauto. }
  split.
  - intros [H|[_ [H|[_ H]]]]; apply X in H; try discriminate; destruct H as (raw & H & ->).
    + exists c_quote, c_quote, raw. split; [now left|]. auto.
    + exists (ch "'"), (ch "'"), raw. split; [right; now left|]. auto.
    + exists (ch "("), (ch ")"), raw. split; [right; right; now left|]. auto.
  - intros (o & c & raw & [E|[E|[E|[]]]] & H & ->); injection E as <- <-.
    + left. apply (X c_quote c_quote); [discriminate|]. exists raw. split; [exact H|reflexivity].
    + right. split.
      * intros (? & ? & ? & ? & ? & ? & (_ & E) & _). discriminate.
      * left. apply (X (ch "'") (ch "'")); [discriminate|]. exists raw. split; [exact H|reflexivity].
    + right. split.
      * intros (? & ? & ? & ? & ? & ? & (_ & E) & _). discriminate.
      * right. split.
        -- intros (? & ? & ? & ? & ? & ? & (_ & E) & _). discriminate.
        -- apply (X (ch "(") (ch ")")); [discriminate|]. exists raw. split; [exact H|reflexivity].
Qed.

(** ** Destinations *)
Definition angle_unit (s : str) (c : char) (r : str) : Prop :=
  (s = ch "\" :: c :: r /\ In c (lit "<>")) \/
  (s = c :: r /\ ~ In c (10%N :: lit "<>") /\ ~ (c = ch "\" /\ exists d u, r = d :: u /\ In d (lit "<>"))).
Lemma exact_angle_units : exact (many0 (alt [preceded (chr "\") (one_of (lit "<>"));
                 preceded (peek (not_ (one_of (c_nl :: lit "<>")))) anychar])) (many_of angle_unit).
Proof.
  eapply exact_iff; [ex|]. apply many_of_ext. intros s c r. unfold angle_unit. split.
  - intros [(x & m & [-> ->] & -> & H)|(N & -> & H)]; [left; auto|]. right. split; [reflexivity|]. split.
    + intro X. apply H. eauto.
    + intros [-> (d & u & -> & X)]. apply N. exists d, u, (ch "\"), (d :: u). auto.
  - intros [[-> H]|(-> & H1 & H2)].
    + left. exists (ch "\"), (c :: r). auto.
    + right. split.
      * intros (a & r' & x & m & [-> E] & -> & X). injection E as -> ->. apply H2. eauto.
      * split; [reflexivity|]. intros (a & r' & E & X). injection E as -> ->. now apply H1.
Qed.
Lemma angle_units : forall s t r, many_of angle_unit s t (lit ">" ++ r) <-> exists raw, angle_text raw t /\ s = raw ++ lit ">" ++ r.
Proof.
  intros s t r. split.
  - intro H. remember (lit ">" ++ r) as q. induction H as [s N|s c m l r' X L Y IH]; subst.
    + exists []. split; [constructor|reflexivity].
    + destruct (IH eq_refl) as (raw & H & ->). destruct X as [[-> X]|(-> & H1 & H2)].
      * exists (ch "\" :: c :: raw). split; [now constructor|reflexivity].
      * exists (c :: raw). split; [|reflexivity]. constructor; [exact H1| |exact H]. intros ->.
        destruct raw as [|d raw]; [elim H2; split; [reflexivity|]; exists (ch ">"), r; split; [reflexivity|right; now left]|].
        exists d, raw. split; [reflexivity|]. intro X. apply H2. split; [reflexivity|]. exists d, (raw ++ lit ">" ++ r). auto.
  - intros (raw & H & ->). induction H as [|c s t H1 H IH|c s t H1 H2 H IH]; cbn [app].
    + apply many_stop. intros (a & r' & [[E _]|(E & H1 & H2)]); [discriminate E|]. injection E as <- _. apply H1. right. right. now left.
    + eapply many_step; [left; split; [reflexivity|exact H1]|cbn; lia|exact IH].
    + eapply many_step; [right; split; [reflexivity|split; [exact H1|]]|cbn; lia|exact IH].
      intros [-> (d & u & E & X)]. destruct (H2 eq_refl) as (d' & u' & -> & X'). cbn in E. injection E as -> _. now apply X'.
Qed.
Lemma exact_destination1 : exact p_link_destination1 (fun s d r => exists raw, angle_text raw d /\ s = lit "<" ++ raw ++ lit ">" ++ r).
Proof.
  unfold p_link_destination1. eapply exact_iff; [eapply exact_delimited; [ex|apply exact_angle_units|ex]|].
  intros s d r. cbv beta. split.
  - intros (a & m1 & m2 & c & [-> ->] & H & -> & ->). apply (angle_units m1 d r) in H as (raw & H & ->). eauto.
  - intros (raw & H & ->). exists (ch "<"), (raw ++ lit ">" ++ r), (lit ">" ++ r), (ch ">"). repeat split. apply angle_units. eauto.
Qed.

Lemma bp_rel : forall m f, m < f -> rel m (balanced_parens_f f) p_balanced_parens.
Proof.
  intros m f L s Hs. unfold p_balanced_parens. destruct (rel_bp (len s) f (S (len s))) with (s := s) as [E N]; [lia|lia|lia|]. auto.
Qed.
Lemma balanced_unfold : forall s, p_balanced_parens s =
  p_unit (delimited (chr "(") (many0 (alt [p_unit p_escaped_any; p_balanced_parens; p_unit (satisfy is_dest_char)])) (chr ")")) s.
Proof.
  intro s. unfold p_balanced_parens at 1. cbn [balanced_parens_f].
  assert (X : rel (len s) (p_unit (delimited (chr "(") (many0 (alt [p_unit p_escaped_any; balanced_parens_f (len s); p_unit (satisfy is_dest_char)])) (chr ")")))
     (p_unit (delimited (chr "(") (many0 (alt [p_unit p_escaped_any; p_balanced_parens; p_unit (satisfy is_dest_char)])) (chr ")")))).
  { pose proof eats_bp as EB.
    assert (RB : forall m, S m = len s -> rel m (balanced_parens_f (len s)) p_balanced_parens) by (intros; apply bp_rel; lia).
    unfold p_unit, value, pmap, delimited, preceded. apply rel_bind; [eats; eapply eats_weaken, EB| |intro; apply rel_ret].
    apply rel_bind_t; [eats|rel|]. intros a m Hm. specialize (RB m Hm). unfold terminated.
    apply rel_bind; [eats; eapply eats_weaken, EB| |intro; unfold value, pmap; apply rel_bind; [eats|rel|intro; rel]].
    apply rel_many0; [eats; eapply eats_weaken, EB|]. apply rel_alt.
    repeat apply Forall2_cons1; [rel|exact RB|rel|constructor]. }
  apply X. lia.
Qed.
Definition graph {A} (p : parser A) : str -> A -> str -> Prop := fun s a r => p s = Ok r a.
Lemma exact_graph : forall A (p : parser A), safe p -> exact p (graph p).
Proof. intros A p S. split; [exact S|]. intros. reflexivity. Qed.
Definition bare_parser : parser unit := alt [p_unit p_escaped_any; p_balanced_parens; p_unit (satisfy is_dest_char)].
Lemma balanced_safe : safe p_balanced_parens. Proof. apply rel_safe, rel_balanced. Qed.
Lemma eats_bare_parser : eats true bare_parser. Proof. unfold bare_parser. eats. Qed.
Lemma bare_class : forall c, is_dest_char c = (bare_char c || N.eqb c (ch "\")).
Proof.
  intro c. unfold is_dest_char, is_valid_char, is_ascii_control, bare_char.
  change (lit "<()\") with [60%N; 40%N; 41%N; 92%N]. cbn [existsb]. change (ch "<") with 60%N. change (ch "(") with 40%N. change (ch ")") with 41%N. change (ch "\") with 92%N.
  destruct (N.eqb_spec c 127), (N.eqb_spec c 32), (N.eqb_spec c 60), (N.eqb_spec c 40), (N.eqb_spec c 41), (N.eqb_spec c 92), (N.ltb_spec c 32), (N.ltb_spec 32 c); cbn; try reflexivity; exfalso; lia.
Qed.
Definition parens_at (s r : str) : Prop := exists a, bare_text a /\ s = ch "(" :: a ++ ch ")" :: r.
Definition bare_unit (s : str) (x : unit) (r : str) : Prop :=
  (exists c, s = ch "\" :: c :: r) \/ (s = lit "\" /\ r = []) \/ (exists c, bare_char c = true /\ s = c :: r) \/ parens_at s r.
Lemma exact_bare_parser : exact bare_parser (fun s x r =>
  (exists c, s = ch "\" :: c :: r) \/ ((~ exists c r', s = ch "\" :: c :: r') /\
   (p_balanced_parens s = Ok r x \/ ((~ exists x' r', p_balanced_parens s = Ok r' x') /\ exists c, s = c :: r /\ is_dest_char c = true)))).
Proof.
  unfold bare_parser, p_escaped_any. eapply exact_iff; [ex; apply exact_graph, balanced_safe|].
  intros s [] r. cbv beta. unfold graph.
  assert (E : forall r, (exists a x m, (x = ch "\" /\ s = ch "\" :: m) /\ m = a :: r) <-> exists c, s = ch "\" :: c :: r).
  { intro r'. split; [intros (a & x & m & [-> ->] & ->); eauto|intros (c & ->); exists c, (ch "\"), (c :: r'); auto]. }
  split.
  - intros [H|(N & H)]; [left; apply E in H; exact H|]. right. split.
    + intros (c & r' & X). apply N. exists tt, r'. apply E. eauto.
    + destruct H as [H|(N' & c & -> & H)]; [now left|]. right. split; [exact N'|]. eauto.
  - intros [H|(N & H)]; [left; apply E; exact H|]. right. split.
    + intros (x & r' & X). apply N. apply E in X. destruct X as (c & X). eauto.
    + destruct H as [H|(N' & c & -> & H)]; [now left|]. right. split; [exact N'|]. eauto.
Qed.
Lemma balanced_exact : forall n s, len s < n -> forall r x, p_balanced_parens s = Ok r x <-> parens_at s r.
Proof.
  induction n as [|n IH]; intros s L r x; [lia|]. rewrite balanced_unfold.
  assert (U : exact (p_unit (delimited (chr "(") (many0 bare_parser) (chr ")"))) (fun s _ r => exists m l, s = ch "(" :: m /\ many_of (graph bare_parser) m l (ch ")" :: r))).
  { eapply exact_iff; [ex; [apply exact_graph; apply exact_bare_parser|apply eats_weaken with true, eats_bare_parser]|].
    intros s' [] r'. cbv beta. split.
    - intros (l & a & m1 & m2 & c & [-> ->] & H & -> & ->). eauto.
    - intros (m & l & -> & H). exists l, (ch "("), m, (ch ")" :: r'), (ch ")"). auto. }
  destruct x. fold bare_parser. rewrite (proj2 U s r tt). unfold parens_at. split.
  - intros (m & l & -> & H). cut (exists a, bare_text a /\ m = a ++ ch ")" :: r); [intros (a & Ha & ->); eauto|].
    cbn in L. apply Nat.succ_lt_mono in L. remember (ch ")" :: r) as q eqn:Eq.
    induction H as [s N|s a m' l r' X L' Y IHH]; subst.
    + exists []. split; [constructor|reflexivity].
    + destruct IHH as (b & Hb & Em); [unfold char, str in *; lia|reflexivity|]. apply exact_bare_parser in X.
      destruct X as [(c & ->)|(NE & [X|(_ & c & -> & X)])].
      * exists (ch "\" :: c :: b). split; [now constructor|]. cbn. now rewrite Em.
      * apply IH in X; [|exact L]. destruct X as (a' & Ha' & ->). exists (ch "(" :: a' ++ ch ")" :: b). split; [now constructor|].
        rewrite Em. cbn. now rewrite <- app_assoc.
      * rewrite bare_class in X. apply orb_true_iff in X as [X|X].
        -- exists (c :: b). split; [now constructor|]. cbn. now rewrite Em.
        -- apply N.eqb_eq in X as ->. exfalso. apply NE. rewrite Em. destruct b; cbn; eauto.
  - intros (a & Ha & ->). exists (a ++ ch ")" :: r). 
    assert (L2 : len (a ++ ch ")" :: r) < n) by (cbn [List.length] in L; unfold char, str in *; lia). clear L.
    cut (exists l, many_of (graph bare_parser) (a ++ ch ")" :: r) l (ch ")" :: r)); [intros [l H]; eauto|].
    induction Ha as [|c s H IHa|c s Hc H IHa|a s Ha1 IHa1 H IHa]; cbn [app] in *.
    + exists []. apply many_stop. intros (x & r' & X). apply exact_bare_parser in X.
      destruct X as [(c & X)|(_ & [X|(_ & c & E & X)])]; [discriminate| |].
      * apply IH in X; [|exact L2]. destruct X as (a & _ & X). discriminate.
      * injection E as <- _. discriminate.
    + destruct IHa as [l X]; [cbn [List.length] in L2; unfold char, str in *; lia|]. exists (tt :: l). refine (many_step _ _ tt _ l _ _ _ X); [|cbn; lia].
      apply exact_bare_parser. left. eauto.
    + destruct IHa as [l X]; [cbn [List.length] in L2; unfold char, str in *; lia|]. exists (tt :: l). refine (many_step _ _ tt _ l _ _ _ X); [|cbn; lia].
      apply exact_bare_parser. right. split; [intros (c' & r' & E); injection E as -> _; discriminate Hc|]. right.
      split; [|exists c; split; [reflexivity|]; rewrite bare_class, Hc; reflexivity].
      intros (x & r' & E). apply IH in E; [|exact L2]. destruct E as (a & _ & E). injection E as -> _. discriminate Hc.
    + rewrite <- app_assoc in *. cbn [app] in *. destruct IHa as [l X]; [clear - L2; cbn [List.length] in L2; rewrite !app_length in *; cbn [List.length] in *; rewrite ?app_length in *; cbn [List.length] in *; unfold char, str in *; lia|]. exists (tt :: l).
      refine (many_step _ _ tt _ l _ _ _ X); [|clear; lenlia].
      apply exact_bare_parser. right. split; [intros (c' & r' & E); discriminate|]. left. apply IH; [exact L2|]. exists a. split; [exact Ha1|reflexivity].
Qed.
Lemma exact_bare_unit : exact bare_parser bare_unit.
Proof.
  eapply exact_iff; [apply exact_bare_parser|]. intros s [] r. cbv beta. unfold bare_unit.
  assert (B : forall s r, p_balanced_parens s = Ok r tt <-> parens_at s r) by (intros; eapply balanced_exact; eauto). split.
  - intros [H|(N & [H|(N' & c & -> & H)])]; [now left| |].
    + apply B in H. auto.
    + rewrite bare_class in H. apply orb_true_iff in H as [H|H]; [right; right; left; eauto|]. apply N.eqb_eq in H as ->.
      destruct r as [|d r]; [auto|]. elim N. eauto.
  - intros [H|[[-> ->]|[(c & H & ->)|H]]]; [now left| | |].
    + right. split; [intros (c & r' & E); discriminate|]. right. split; [|exists (ch "\"); auto].
      intros ([] & r' & E). apply B in E. destruct E as (a & _ & E). discriminate.
    + right. split; [intros (c' & r' & E); injection E as -> _; discriminate|]. right. split; [|exists c; split; [reflexivity|]; rewrite bare_class, H; reflexivity].
      intros ([] & r' & E). apply B in E. destruct E as (a & _ & E). injection E as -> _. discriminate.
    + right. split; [|left; now apply B]. destruct H as (a & _ & ->). intros (c & r' & E). discriminate.
Qed.
Lemma bare_stops_iff : forall r, bare_stops r <-> ~ exists x r', bare_unit r x r'.
Proof.
  intros [|c r]; cbn; unfold bare_unit, parens_at.
  - split; [|trivial]. intros _ (x & r' & [(c & E)|[[E _]|[(c & _ & E)|(a & _ & E)]]]); discriminate.
  - split.
    + intros (H1 & H2 & H3) (x & r' & [(c' & E)|[[E _]|[(c' & H & E)|(a & H & E)]]]); [injection E as -> _; now apply H2|injection E as -> _; now apply H2|injection E as -> _; congruence|].
      apply H3. eauto.
    + intro N. split; [destruct (bare_char c) eqn:E; [elim N; exists tt, r; eauto 6|reflexivity]|]. split.
      * intros ->. apply N. destruct r as [|d r]; [exists tt, []; auto|]. exists tt, r. left. eauto.
      * intros (a & t & E & H). apply N. exists tt, t. right. right. right. eauto.
Qed.
Definition bare_source (d r : str) : Prop := (bare_text d /\ bare_stops r) \/ (exists d', d = d' ++ lit "\" /\ bare_text d' /\ r = []).
Lemma bare_units : forall s r, (exists l, many_of bare_unit s l r) <-> exists d, s = d ++ r /\ bare_source d r.
Proof.
  intros s r. split.
  - intros (l & H). induction H as [s N|s a m l r X L Y IH].
    + exists []. split; [reflexivity|]. left. split; [constructor|now apply bare_stops_iff].
    + destruct IH as (d & -> & H). destruct X as [(c & ->)|[[-> E]|[(c & Hc & ->)|(a' & Ha & ->)]]].
      * exists (ch "\" :: c :: d). split; [reflexivity|]. destruct H as [[H H']|(d' & -> & H & H')]; [left; split; [now constructor|exact H']|].
        right. exists (ch "\" :: c :: d'). split; [reflexivity|]. split; [now constructor|exact H'].
      * apply app_eq_nil in E as [-> ->]. exists (lit "\"). split; [reflexivity|]. right. exists []. repeat split. constructor.
      * exists (c :: d). split; [reflexivity|]. destruct H as [[H H']|(d' & -> & H & H')]; [left; split; [now constructor|exact H']|].
        right. exists (c :: d'). split; [reflexivity|]. split; [now constructor|exact H'].
      * exists (ch "(" :: a' ++ ch ")" :: d). split; [cbn; now rewrite <- app_assoc|]. destruct H as [[H H']|(d' & -> & H & H')]; [left; split; [now constructor|exact H']|].
        right. exists (ch "(" :: a' ++ ch ")" :: d'). split; [cbn; now rewrite <- app_assoc|]. split; [now constructor|exact H'].
  - intros (d & -> & H).
    assert (X : forall d, bare_text d -> forall t l, many_of bare_unit t l r -> exists l, many_of bare_unit (d ++ t) l r).
    { clear. intros d H. induction H as [|c s H IH|c s Hc H IH|a s Ha1 _ H IH]; intros t l X; cbn [app]; [eauto| | |].
      - destruct (IH _ _ X) as [l' Y]. exists (tt :: l'). refine (many_step _ _ tt _ l' _ _ _ Y); [left; eauto|lenlia].
      - destruct (IH _ _ X) as [l' Y]. exists (tt :: l'). refine (many_step _ _ tt _ l' _ _ _ Y); [right; right; left; eauto|lenlia].
      - rewrite <- app_assoc. cbn [app]. destruct (IH _ _ X) as [l' Y]. exists (tt :: l'). refine (many_step _ _ tt _ l' _ _ _ Y); [right; right; right; exists a; auto|lenlia]. }
    destruct H as [[H H']|(d' & -> & H & ->)].
    + apply (X d H r []). apply many_stop. now apply bare_stops_iff.
    + rewrite app_nil_r. apply (X d' H (lit "\") [tt]). refine (many_step _ _ tt [] [] _ _ _ _); [right; left; auto|cbn; lia|].
      apply many_stop. now apply bare_stops_iff.
Qed.
Lemma exact_destination2 : exact p_link_destination2 (fun s d r => d <> [] /\ s = d ++ r /\ bare_source d r).
Proof.
  unfold p_link_destination2. fold bare_parser. eapply exact_iff; [ex; [apply exact_bare_unit|apply eats_bare_parser|apply eats_weaken with true, eats_bare_parser]|].
  intros s d r. cbv beta. split.
  - intros (a & m & (-> & r' & _) & -> & l & N & H). destruct (proj1 (bare_units (d ++ r) r) (ex_intro _ l H)) as (d' & E & X).
    apply app_inv_tail in E as <-. split; [|auto]. intros ->. inversion H as [|? ? m' ? ? ? L Y]; subst; [now elim N|].
    assert (Z : len r <= len m'). { clear - Y. induction Y; [lia|]. lia. } cbn in L. lia.
  - intros (N & -> & H). destruct d as [|c d]; [now elim N|]. exists c, ((c :: d) ++ r). split.
    + split; [reflexivity|]. exists (d ++ r). split; [reflexivity|].
      assert (X : forall c, is_dest_char c = true \/ c = ch "(" -> is_valid_char c && negb (N.eqb c (ch "<")) = true).
      { clear. intros c [H| ->]; [|reflexivity]. unfold is_dest_char in H. apply andb_true_iff in H as [H _]. apply andb_true_iff in H as [H _].
        rewrite H. cbn. unfold is_valid_char in H. apply andb_true_iff in H as [_ H]. exact H. }
      apply X. rewrite bare_class.
      assert (Y : forall e t, bare_text (e :: t) -> bare_char e || N.eqb e (ch "\") = true \/ e = ch "(").
      { clear. intros e t H. inversion H; subst; [now left|left; now rewrite H2|now right]. }
      destruct H as [[H _]|(d' & E & H & _)]; [now apply (Y c d)|]. destruct d' as [|e d']; [injection E as -> _; now left|]. injection E as -> _. now apply (Y e d').
    + split; [reflexivity|]. destruct (proj2 (bare_units ((c :: d) ++ r) r)) as [l X]; [eauto|]. exists l. split; [|exact X].
      intros ->. assert (Z : forall s r, many_of bare_unit s [] r -> s = r) by (clear; intros ? ? Z; now inversion Z). apply Z in X. apply (f_equal (@List.length char)) in X. lenlia.
Qed.
Lemma exact_destination : exact p_link_destination destination_at.
Proof.
  unfold p_link_destination. eapply exact_iff; [ex; [apply exact_destination1|apply exact_destination2]|]. intros s d r. cbv beta. split.
  - intros [(raw & H & ->)|(_ & N & -> & [[H1 H2]|(d' & -> & H & ->)])]; [now constructor|now constructor|]. rewrite app_nil_r. now constructor.
  - assert (X : forall d r, d <> [] -> bare_source d r -> ~ exists a r' raw, angle_text raw a /\ d ++ r = lit "<" ++ raw ++ lit ">" ++ r').
    { clear. intros d r N H (a & r' & raw & _ & E). destruct d as [|c d]; [now elim N|]. injection E as -> _.
      assert (Y : forall t, ~ bare_text (ch "<" :: t)) by (intros t X; inversion X; discriminate).
      destruct H as [[H _]|(d' & E & H & _)]; [now apply (Y d)|]. destruct d' as [|e d']; [discriminate E|]. injection E as <- _. now apply (Y d'). }
    intros [raw d0 r0 H|d0 r0 N H1 H2|d0 H].
    + left. eauto.
    + right. split; [apply X; [exact N|now left]|]. split; [exact N|]. split; [reflexivity|now left].
    + right. assert (Z : bare_source (d0 ++ lit "\") []) by (right; eauto). assert (N : d0 ++ lit "\" <> []) by (destruct d0; discriminate). split.
      * intros (a & r' & raw & Y). apply (X (d0 ++ lit "\") [] N Z). rewrite app_nil_r. eauto.
      * split; [exact N|]. split; [now rewrite app_nil_r|exact Z].
Qed.

(** ** The part of a link in parentheses *)
Lemma gap_class : forall c, is_space c || N.eqb c 10 || N.eqb c 13 = is_gap c.
Proof. intro c. unfold is_space, is_gap. cbn [existsb]. destruct (N.eqb c 32), (N.eqb c 9), (N.eqb c 10), (N.eqb c 13); reflexivity. Qed.
Lemma exact_multispace0 : exact multispace0 (fun s v r => s = v ++ r /\ all is_gap v /\ not_first is_gap r).
Proof.
  eapply exact_iff; [apply exact_take_while|]. intros s v r. cbv beta. now rewrite (all_ext _ _ gap_class), (not_first_ext _ _ gap_class).
Qed.
Lemma bare_not_gap : forall c, bare_char c = true -> is_gap c = false.
Proof.
  intros c H. unfold bare_char in H. apply andb_true_iff in H as [H _]. apply N.ltb_lt in H. unfold is_gap. cbn [existsb].
  destruct (N.eqb_spec c 32), (N.eqb_spec c 9), (N.eqb_spec c 10), (N.eqb_spec c 13); subst; try lia; reflexivity.
Qed.
Lemma dest_not_gap : forall s d r, destination_at s d r -> not_first is_gap s.
Proof.
  assert (X : forall d t, d <> [] -> bare_text d -> not_first is_gap (d ++ t)).
  { intros d t N H. destruct H; [now elim N| | |]; cbn [app]; apply not_first_cons; [reflexivity|now apply bare_not_gap|reflexivity]. }
  intros s d r [raw d0 r0 H|d0 r0 N H1 H2|d0 H]; [now apply not_first_cons|now apply X|].
  destruct d0; [now apply not_first_cons|]. now apply X.
Qed.
Lemma title_not_gap : forall s d r, title_at s d r -> not_first is_gap s.
Proof. intros s d r (o & c & raw & [E|[E|[E|[]]]] & _ & ->); injection E as <- <-; now apply not_first_cons. Qed.
Lemma gaps_unique : forall w1 w2 a b, all is_gap w1 -> all is_gap w2 -> not_first is_gap a -> not_first is_gap b -> w1 ++ a = w2 ++ b -> w1 = w2 /\ a = b.
Proof.
  intros w1 w2 a b H1 H2 Ha Hb E. assert (X : span is_gap (w1 ++ a) = (w1, a)) by (apply span_iff; auto).
  assert (Y : span is_gap (w1 ++ a) = (w2, b)) by (apply span_iff; auto). rewrite X in Y. now injection Y.
Qed.
Lemma exact_link_tail : exact p_link_tail link_tail_at.
Proof.
  unfold p_link_tail. eapply exact_iff; [ex; first [apply exact_multispace0|apply exact_destination|apply exact_link_title]|].
  intros s [d t] r. cbv beta. unfold link_tail_at. cbn [fst snd]. split.
  - intros (x & m1 & m2 & y & [-> ->] & (m & (w1 & m3 & (-> & H1 & _) & H2) & H3) & w3 & m4 & (-> & H4 & _) & -> & ->).
    exists w1, m3, m, (w3 ++ lit ")" ++ r), w3. repeat split; auto. destruct t as [t|].
    + right. destruct H3 as (w2 & m5 & (-> & H5 & _) & H6). exists w2, m5, t. auto.
    + left. destruct H3 as [-> _]. auto.
  - intros (w1 & s1 & s2 & s3 & w3 & -> & H1 & H2 & H3 & -> & H4).
    exists (ch "("), (w1 ++ s1), (w3 ++ lit ")" ++ r), (ch ")"). split; [auto|]. split.
    + exists s2. split; [exists w1, s1; split; [|exact H2]; split; [reflexivity|]; split; [exact H1|eapply dest_not_gap, H2]|].
      destruct H3 as [[-> <-]|(w2 & m & t' & -> & -> & H5 & H6)].
      * split; [reflexivity|]. intros (t & r' & w & m & (E & Hw & Hn) & Ht).
        apply gaps_unique in E as [_ E]; [|exact H4|exact Hw|now apply not_first_cons|exact Hn]. subst m.
        destruct Ht as (o & c & raw & [E|[E|[E|[]]]] & _ & E'); injection E as <- <-; discriminate E'.
      * exists w2, m. split; [|exact H6]. split; [reflexivity|]. split; [exact H5|eapply title_not_gap, H6].
    + exists w3, (lit ")" ++ r). split; [|auto]. split; [reflexivity|]. split; [exact H4|now apply not_first_cons].
Qed.

(** ** Images, footnote references, hard breaks *)
Lemma exact_image : exact p_image (fun s i r => exists d t a, i = IImage (Image d t a) /\ r_image s (PImage d t a) r).
Proof.
  unfold p_image. eapply exact_iff; [ex; apply exact_link_tail|]. intros s i r. cbv beta. split.
  - intros (a & m & (x & m' & [-> ->] & y & m1 & m2 & z & [-> ->] & (-> & H & _) & -> & ->) & d & t & m3 & Ht & -> & ->).
    exists d, t, a. split; [reflexivity|]. apply (R_image a d t m m3); [|exact Ht]. intro X. unfold all in H. rewrite Forall_forall in H.
    specialize (H _ X). discriminate H.
  - intros (d & t & a & -> & H). inversion H as [a' d' t' m r' N Ht]; subst.
    exists a, m. split.
    + exists (ch "!"), (lit "[" ++ a ++ lit "]" ++ m). split; [auto|]. exists (ch "["), (a ++ lit "]" ++ m), (lit "]" ++ m), (ch "]").
      split; [auto|]. split; [|auto]. split; [reflexivity|]. split; [|now apply not_first_cons].
      apply Forall_forall. intros c Hc. destruct (N.eqb_spec c (ch "]")); [subst; contradiction|reflexivity].
    + exists d, t, r. auto.
Qed.
Lemma exact_footnote : exact p_footnote_reference (fun s i r => exists l, i = IFootnoteReference l /\ r_footnote s (PFootnote l) r).
Proof.
  unfold p_footnote_reference. eapply exact_iff; [ex|]. intros s i r. cbv beta. split.
  - intros (l & (x & m1 & m2 & y & [-> ->] & (N & -> & H & _) & -> & ->) & ->). exists l. split; [reflexivity|]. now apply R_footnote.
  - intros (l & -> & H). inversion H as [l' r' N Hl]; subst. exists l. split; [|reflexivity].
    exists (lit "[^"), (l ++ lit "]" ++ r), (lit "]" ++ r), (ch "]"). split; [auto|]. split; [|auto].
    split; [exact N|]. split; [reflexivity|]. split; [exact Hl|now apply not_first_cons].
Qed.
(** runs of one character *)
Lemma many_run : forall c s l r, many_of (fun s x r => x = c /\ s = c :: r) s l r <-> exists n, l = rep n c /\ s = rep n c ++ r /\ ~ begins_with c r.
Proof.
  intros c s l r. split.
  - intro H. induction H as [s N|s a m l r [-> ->] L Y (n & -> & -> & H)].
    + exists 0. repeat split. intros [t E]. apply N. exists c, t. auto.
    + exists (S n). auto.
  - intros (n & -> & -> & H). induction n as [|n IH]; cbn [rep repeat app].
    + apply many_stop. intros (a & r' & _ & E). apply H. now exists r'.
    + refine (many_step _ _ c _ _ _ _ _ IH); [auto|apply Nat.lt_succ_diag_r].
Qed.
(** [many_m_n] is bounded repetition *)
Inductive many_between {A} (R : str -> A -> str -> Prop) : nat -> nat -> str -> list A -> str -> Prop :=
| mb_full : forall min s, many_between R min 0 s [] s
| mb_stop : forall max s, (~ exists a r, R s a r) -> many_between R 0 (S max) s [] s
| mb_step : forall min max s a m l r, R s a m -> len m < len s -> many_between R (pred min) max m l r -> many_between R min (S max) s (a :: l) r.
Lemma exact_many_m_n : forall A (p : parser A) R, exact p R -> eats true p -> forall max min, exact (many_m_n min max p) (many_between R min max).
Proof.
  intros A p R H Ep. induction max as [|max IH]; intro min.
  - split; [discriminate|]. intros s r l. cbn. split; [intro X; injection X as <- <-; constructor|intro X; now inversion X].
  - assert (Q : forall s m a, p s = Ok m a -> (len m =? len s) = false) by (intros s m a E; apply Nat.eqb_neq; apply (eats_lt _ _ _ _ _ Ep) in E; lia).
    split.
    + intro s. cbn [many_m_n]. destruct (p s) as [m a| |] eqn:E.
      * rewrite (Q _ _ _ E). pose proof (proj1 (IH (pred min)) m). destruct (many_m_n (pred min) max p m); congruence.
      * destruct min; discriminate.
      * now elim (proj1 H s).
    + intros s r l. cbn [many_m_n]. destruct (p s) as [m a| |] eqn:E.
      * rewrite (Q _ _ _ E). split.
        -- destruct (many_m_n (pred min) max p m) as [r1 l1| |] eqn:E1; try discriminate. intro X. injection X as <- <-.
           apply mb_step with m; [now apply H|apply (eats_lt _ _ _ _ _ Ep E)|now apply IH].
        -- intro X. apply H in E. inversion X as [|max' s' N|min' max' s' a' m' l' r' X1 X2 X3]; subst; [elim N; eauto|].
           destruct (exact_fun _ _ H _ _ _ _ _ X1 E) as [-> ->]. apply IH in X3. now rewrite X3.
      * pose proof (proj1 (exact_err _ _ H s) E) as N. split.
        -- destruct min; [|discriminate]. intro X. injection X as <- <-. now apply mb_stop.
        -- intro X. inversion X as [|max' s' N'|min' max' s' a' m' l' r' X1 X2 X3]; subst; [reflexivity|elim N; eauto].
      * now elim (proj1 H s).
Qed.
Lemma between_run : forall c max min s l r, min <= max ->
  (many_between (fun s x r => x = c /\ s = c :: r) min max s l r <->
   exists n, l = rep n c /\ s = rep n c ++ r /\ min <= n <= max /\ (n < max -> ~ begins_with c r)).
Proof.
  intros c. induction max as [|max IH]; intros min s l r Hm.
  - split; [intro H; inversion H; subst; exists 0; repeat split; lia|]. intros (n & -> & -> & Hn & _). assert (n = 0) as -> by lia. constructor.
  - split.
    + intro H. inversion H as [|max' s' N|min' max' s' a m l' r' [-> ->] X2 X3]; subst.
      * exists 0. repeat split; [lia|lia|]. intros _ [t E]. apply N. exists c, t. auto.
      * apply IH in X3 as (n & -> & -> & Hn & Hr); [|lia]. exists (S n). repeat split; [lia|lia|]. intro. apply Hr. lia.
    + intros ([|n] & -> & -> & Hn & Hr); cbn [rep repeat app].
      * assert (min = 0) as -> by lia. apply mb_stop. intros (a & r' & _ & E). apply Hr; [lia|now exists r'].
      * eapply mb_step; [split; reflexivity|cbn; lia|]. apply IH; [lia|]. exists n. repeat split; [lia|lia|]. intro. apply Hr. lia.
Qed.
Lemma exact_spaces : forall c min max, min <= max -> exact (many_m_n min max (char_ c)) (fun s l r => exists n, l = rep n c /\ s = rep n c ++ r /\ min <= n <= max /\ (n < max -> ~ begins_with c r)).
Proof.
  intros c min max L. eapply exact_iff; [apply exact_many_m_n; [apply exact_char|unfold char_; apply eats_satisfy]|].
  intros s l r. cbv beta. apply between_run, L.
Qed.
Lemma rep_length : forall n c, len (rep n c) = n. Proof. intros. apply repeat_length. Qed.
Lemma exact_run_ge : forall c min, exact (many_ge min (char_ c)) (fun s l r => exists n, l = rep n c /\ s = rep n c ++ r /\ min <= n /\ ~ begins_with c r).
Proof.
  intros c min. split.
  - intro s. unfold many_ge. apply exact_spaces. lia.
  - intros s r l. unfold many_ge. rewrite (proj2 (exact_spaces c min (S (len s) + min) ltac:(lia)) s r l). split.
    + intros (n & -> & E & Hn & Hr). exists n. repeat split; auto; [lia|]. apply Hr. apply (f_equal (@List.length char)) in E.
      rewrite app_length, rep_length in E. unfold char, str in *. lia.
    + intros (n & -> & -> & Hn & Hr). exists n. repeat split; auto. rewrite app_length, rep_length. unfold char, str in *. lia.
Qed.
Lemma exact_break : exact p_hard_newline (fun s i r => i = ILineBreak /\ r_break s PBreak r).
Proof.
  unfold p_hard_newline. eapply exact_iff; [ex; apply exact_run_ge|]. intros s i r. cbv beta. split.
  - intros (-> & x & [([y e] & m & [_ ->] & He & ->)|(_ & [y e] & m & (n & _ & -> & Hn & _) & He & ->)]); (split; [reflexivity|]).
    + now apply (R_backslash e r).
    + now apply R_spaces.
  - intros [-> H]. split; [reflexivity|]. exists tt. inversion H as [e r' He|n e r' Hn He]; subst.
    + left. exists (ch "\", e), (e ++ r). cbn. auto.
    + right. split.
      * intros (a & r' & x & m & [_ E] & _). destruct n; [lia|]. discriminate E.
      * exists (rep n c_sp, e), (e ++ r). cbn. split; [|auto]. exists n. repeat split; auto. intros [t E]. destruct He as [->| ->]; discriminate E.
Qed.

(** ** Words with underscores *)
Definition word_unit (s v r : str) : Prop := v <> [] /\ s = v ++ r /\
  ((all is_alnum v /\ not_first is_alnum r) \/ v = lit "_").
Lemma exact_word_units : exact (many0 (alt [alphanumeric1; recognize (chr "_")])) (many_of word_unit).
Proof.
  eapply exact_iff; [ex|]. apply many_of_ext. intros s v r. unfold word_unit. split.
  - intros [(N & -> & H1 & H2)|(_ & -> & x & -> & E)]; [auto|]. change (ch "_" :: r) with (lit "_" ++ r) in E. apply app_inv_tail in E as ->.
    split; [discriminate|auto].
  - intros (N & -> & [[H1 H2]| ->]); [left; auto|]. right. split; [|split; [reflexivity|exists (ch "_"); auto]].
    intros (a & r' & N' & E & H & _). destruct a as [|c a]; [now elim N'|]. injection E as <- _. inversion H; discriminate.
Qed.
Lemma alnum_word : forall c, is_alnum c = true -> word_char c = true. Proof. intros c H. unfold word_char. now rewrite H. Qed.
Lemma not_first_sub : forall (f g : char -> bool) s, (forall c, f c = true -> g c = true) -> not_first g s -> not_first f s.
Proof. intros f g s H N c B. specialize (N c B). destruct (f c) eqn:E; [rewrite (H _ E) in N; discriminate|reflexivity]. Qed.
Lemma word_units : forall s r, (exists l, many_of word_unit s l r) <-> exists t, s = t ++ r /\ all word_char t /\ not_first word_char r.
Proof.
  intros s r. split.
  - intros [l H]. induction H as [s N|s v m l r (N & -> & X) L Y (t & -> & H1 & H2)].
    + exists []. split; [reflexivity|]. split; [constructor|]. intros c [t ->]. destruct (word_char c) eqn:E; [|reflexivity]. elim N.
      unfold word_char in E. apply orb_true_iff in E as [E|E].
      * destruct (span is_alnum (c :: t)) as [a b] eqn:S. apply span_iff in S as (S1 & S2 & S3). exists a, b. split; [|auto].
        intros ->. cbn in S1. subst b. apply not_first_cons in S3. congruence.
      * apply N.eqb_eq in E as ->. exists (lit "_"), t. split; [discriminate|auto].
    + exists (v ++ t). split; [now rewrite app_assoc|]. split; [|exact H2]. apply all_app. split; [|exact H1]. destruct X as [[X _]| ->].
      * revert X. apply Forall_impl. apply alnum_word.
      * now repeat constructor.
  - intros (t & -> & H1 & H2). remember (len t) as n eqn:En. assert (Ln : len t <= n) by lia. clear En. revert t Ln H1. induction n as [|n IH]; intros t Ln H1.
    + destruct t; [|cbn in Ln; lia]. exists []. apply many_stop. intros (v & m & N & E & X). cbn in E. subst r.
      destruct v as [|c v]; [now elim N|]. specialize (H2 c (ex_intro _ (v ++ m) eq_refl)). destruct X as [[X _]|X].
      * inversion X; subst. rewrite (alnum_word c) in H2; [discriminate|assumption].
      * injection X as -> _. discriminate.
    + destruct t as [|c t]; [apply (IH []); [cbn; lia|constructor]|].
      assert (X : exists v t', v <> [] /\ c :: t = v ++ t' /\ all word_char t' /\ ((all is_alnum v /\ not_first is_alnum (t' ++ r)) \/ v = lit "_")).
      { inversion H1 as [|? ? Hc Ht]; subst. destruct (is_alnum c) eqn:Ec.
        - destruct (span is_alnum (c :: t)) as [a b] eqn:S. apply span_iff in S as (S1 & S2 & S3). exists a, b. split; [intros ->; cbn in S1; subst b; apply not_first_cons in S3; congruence|].
          split; [exact S1|]. rewrite S1 in H1. apply all_app in H1 as [_ H1]. split; [exact H1|]. left. split; [exact S2|].
          destruct b as [|x b]; [cbn; eapply not_first_sub; [apply alnum_word|exact H2]|]. apply not_first_cons in S3. now apply not_first_cons.
        - exists (lit "_"), t. unfold word_char in Hc. rewrite Ec in Hc. cbn in Hc. apply N.eqb_eq in Hc as ->. split; [discriminate|auto]. }
      destruct X as (v & t' & N & E & Hw & X). destruct (IH t') as [l Y]; [|exact Hw|].
      { apply (f_equal (@List.length char)) in E. destruct v; [now elim N|]. lenlia. }
      exists (v :: l). rewrite E, <- app_assoc. refine (many_step _ _ v _ _ _ _ _ Y); [split; [exact N|auto]|]. destruct v; [now elim N|]. lenlia.
Qed.
Lemma last_is_iff : forall c s, last_is c s = true <-> exists a, s = a ++ [c].
Proof.
  intros c s. unfold last_is. split.
  - destruct (rev s) as [|x t] eqn:E; [discriminate|]. intro H. apply N.eqb_eq in H as ->. exists (rev t).
    rewrite <- (rev_involutive s), E. reflexivity.
  - intros [a ->]. rewrite rev_unit. apply N.eqb_refl.
Qed.
Lemma double_us : forall s, has_double_underscore s = true <-> exists a b, s = a ++ lit "__" ++ b.
Proof.
  induction s as [|c s IH]; cbn [has_double_underscore].
  - split; [discriminate|]. intros ([|] & b & E); discriminate.
  - rewrite orb_true_iff, andb_true_iff, IH, N.eqb_eq. split.
    + intros [[-> H]|(a & b & ->)]; [|now exists (c :: a), b]. destruct s as [|d s]; [discriminate|]. apply N.eqb_eq in H as ->. now exists [], s.
    + intros ([|x a] & b & E); cbn in E.
      * injection E as -> ->. left. split; reflexivity.
      * injection E as -> ->. right. exists a, b. reflexivity.
Qed.
Lemma alpha_us : forall c, is_alpha c = true -> c <> ch "_". Proof. intros c H ->. discriminate. Qed.
Lemma alpha_word : forall c, is_alpha c = true -> word_char c = true.
Proof. intros c H. apply alnum_word. unfold is_alnum. now rewrite H. Qed.
Lemma exact_word : exact p_environment_variable (fun s i r => exists w, i = IText w /\ r_word s (PWord w) r).
Proof.
  unfold p_environment_variable. eapply exact_iff.
  { eapply exact_pmap, exact_verify, exact_recognize; [eapply exact_pair; [ex|apply exact_word_units]|eats]. }
  intros s i r. cbv beta. split.
  - intros (w & ((-> & [a l] & m & (N & E & Ha & Hn) & H) & L) & ->). cbn [fst snd] in *. exists w. split; [reflexivity|].
    destruct (proj1 (word_units m r) (ex_intro _ l H)) as (t & -> & Ht & Hr). rewrite app_assoc in E. apply app_inv_tail in E as ->.
    destruct a as [|c a]; [now elim N|]. inversion Ha as [|? ? Hc Ha']; subst.
    unfold is_likely_env_var in L. rewrite !andb_true_iff, !negb_true_iff in L. destruct L as ((((L1 & _) & L2) & L3) & L4).
    cbn [app] in *. apply orb_false_iff in L4 as [L4 L5]. apply Nat.ltb_ge in L4, L5. constructor; auto.
    + apply all_app. split; [|exact Ht]. revert Ha'. apply Forall_impl, alpha_word.
    + apply existsb_exists in L1 as (x & Hx & Ex). apply N.eqb_eq in Ex as <-. destruct Hx as [Hx|Hx]; [|exact Hx]. subst c. discriminate Hc.
    + intros x E. assert (X : last_is (ch "_") (c :: a ++ t) = true) by (apply last_is_iff; now exists x). congruence.
    + intros x y E. assert (X : has_double_underscore (c :: a ++ t) = true) by (apply double_us; exists (c :: x), y; rewrite E; reflexivity). congruence.
  - intros (w & -> & H). inversion H as [c t r' Hc Ht Hr Hu Hl Hd Hlen]; subst. exists (c :: t). split; [|reflexivity].
    destruct (span is_alpha t) as [a b] eqn:S. apply span_iff in S as (-> & S2 & S3). apply all_app in Ht as [Ha Hb]. split; [split; [reflexivity|]|].
    + destruct (proj2 (word_units (b ++ r) r)) as [l X]; [exists b; auto|]. exists (c :: a, l), (b ++ r). cbn [fst snd]. split; [|exact X].
      split; [discriminate|]. split; [cbn; now rewrite <- app_assoc|]. split; [now constructor|].
      destruct b as [|x b]; [cbn; eapply not_first_sub; [apply alpha_word|exact Hr]|]. apply not_first_cons in S3. now apply not_first_cons.
    + unfold is_likely_env_var. rewrite !andb_true_iff, !negb_true_iff. repeat split.
      * apply existsb_exists. exists (ch "_"). split; [now right|apply N.eqb_refl].
      * change (starts_with (lit "_") (c :: a ++ b)) with (N.eqb (ch "_") c && true). rewrite andb_true_r. apply N.eqb_neq. intro E. now apply (alpha_us c).
      * destruct (last_is _ _) eqn:E; [|reflexivity]. apply last_is_iff in E as [x E]. elim (Hl x E).
      * destruct (has_double_underscore _) eqn:E; [|reflexivity]. apply double_us in E as (x & y & E). destruct x as [|z x].
        -- cbn in E. injection E as -> _. now elim (alpha_us _ Hc).
        -- injection E as _ E. elim (Hd x y E).
      * apply orb_false_iff. rewrite !Nat.ltb_ge. exact Hlen.
Qed.
