(** Exactness of the line-level parsers of the block grammar. *)
From Coq Require Import String Lia.
From Verif Require Import SpecParser Nom NomFacts ParserLeaf ParserTotal ParserCode SpecInline SyntaxFacts SyntaxInline SyntaxInline2 ParserBlock ParserBlockFacts SpecBlock.
Import ListNotations.
Open Scope list_scope.
Local Notation len := (@List.length _).

Lemma repeated_self : forall A (R : rule A), (forall s a r a' r', R s a r -> R s a' r' -> a = a' /\ r = r') ->
  forall s l r, repeated R s l r -> forall a, ~ R s a s.
Proof.
  intros A R F s l r H. induction H as [s N|s b m l r H1 H2 IH]; intros a X.
  - apply N. now exists a, s.
  - destruct (F _ _ _ _ _ H1 X) as [_ ->]. exact (IH a X).
Qed.
Lemma many_repeated : forall A (p : parser A) R, exact p R -> eats false p ->
  forall s l r, many_of R s l r <-> repeated R s l r.
Proof.
  intros A p R H Ep s l r. split.
  - induction 1 as [s N|s a m l r X L Y IH]; [now apply rep_stop|econstructor; eassumption].
  - intro X. induction X as [s N|s a m l r X Y IH]; [now apply many_stop|]. refine (many_step _ _ a _ _ _ X _ IH).
    pose proof (exact_ok _ _ H _ _ _ X) as E. destruct (Ep _ _ _ E) as (c & -> & _). destruct c as [|x c]; [|lenlia].
    exfalso. exact (repeated_self _ R (exact_fun _ _ H) _ _ _ Y a X).
Qed.
Lemma exact_repeated : forall A (p : parser A) R, exact p R -> eats false p -> exact (many0 p) (repeated R).
Proof. intros A p R H Ep. eapply exact_iff; [apply exact_many0; eassumption|]. intros. now apply many_repeated with p. Qed.
Lemma exact_repeated1 : forall A (p : parser A) R, exact p R -> eats false p ->
  exact (many1 p) (fun s l r => l <> [] /\ repeated R s l r).
Proof.
  intros A p R H Ep. unfold many1. eapply exact_iff.
  - apply exact_bind; [exact H|]. intro a. apply exact_pmap, exact_repeated; eassumption.
  - intros s l r. cbv beta. split.
    + intros (a & m & X & l' & Y & ->). split; [discriminate|econstructor; eassumption].
    + intros [N X]. inversion X as [|? a m l' ? X1 X2]; subst; [now elim N|]. eauto 6.
Qed.
Lemma repeated_ext : forall A (R Q : rule A), (forall s a r, R s a r <-> Q s a r) ->
  forall s l r, repeated R s l r <-> repeated Q s l r.
Proof.
  intros A R Q E s l r. split; induction 1 as [s N|s a m l r X Y IH].
  - apply rep_stop. intros (a & r & X). apply N. exists a, r. now apply E.
  - econstructor; [apply E, X|exact IH].
  - apply rep_stop. intros (a & r & X). apply N. exists a, r. now apply E.
  - econstructor; [apply E, X|exact IH].
Qed.

(** ** Line ends *)
Lemma line_end_iff : forall s r, line_end s r <-> (exists e, is_eol e /\ s = e ++ r) \/ (s = [] /\ r = []).
Proof.
  intros s r. split.
  - intros [e r' H|]; [left; eauto|now right].
  - intros [(e & H & ->)|[-> ->]]; [now apply end_eol|apply end_eof].
Qed.
Lemma exact_eof_or_eol : exact eof_or_eol (fun s v r => s = v ++ r /\ line_end s r).
Proof.
  unfold eof_or_eol. eapply exact_iff; [ex|]. intros s v r. cbv beta. rewrite line_end_iff. split.
  - intros [(H & ->)|(_ & -> & -> & ->)]; [split; [reflexivity|left; eauto]|split; [reflexivity|now right]].
  - intros (-> & [(e & H & E)|[E1 ->]]).
    + left. apply app_inv_tail in E as ->. auto.
    + right. rewrite app_nil_r in E1. subst. split; [|auto]. intros (a & r' & [->| ->] & X); discriminate.
Qed.
Lemma line_end_fun : forall s r r', line_end s r -> line_end s r' -> r = r'.
Proof.
  intros s r r' H H'. assert (E : forall r, line_end s r -> exists v, s = v ++ r).
  { intros x X. apply line_end_iff in X as [(e & _ & ->)|[-> ->]]; [eauto|exists []; reflexivity]. }
  destruct (E r H) as [v V]. destruct (E r' H') as [v' V'].
  apply (exact_fun _ _ exact_eof_or_eol s v r v' r'); auto.
Qed.
Lemma exact_lt : forall A (p : parser A) R, exact p R -> exact (line_terminated p) (fun s a r => exists m, R s a m /\ line_end m r).
Proof.
  intros A p R H. unfold line_terminated. eapply exact_iff; [ex; [exact H|apply exact_eof_or_eol]|]. intros s a r. cbv beta. split.
  - intros (m & b & X & _ & Y). eauto.
  - intros (m & X & Y). exists m. apply line_end_iff in Y. destruct Y as [(e & Y & ->)|[-> ->]]; [exists e|exists []]; (split; [exact X|]);
      (split; [reflexivity|]); apply line_end_iff; [left; eauto|now right].
Qed.
Lemma line_end_first : forall c s r, line_end (c :: s) r -> c = 10%N \/ c = 13%N.
Proof. intros c s r H. apply line_end_iff in H as [(e & [->| ->] & E)|[E _]]; [|..|discriminate]; injection E as -> _; auto. Qed.
Lemma line_end_cr : forall s r, line_end (13%N :: s) r -> s = 10%N :: r.
Proof. intros s r H. apply line_end_iff in H as [(e & [->| ->] & E)|[E _]]; [discriminate| |discriminate]. now injection E. Qed.
Lemma line_end_lf : forall s r, line_end (10%N :: s) r <-> s = r.
Proof.
  intros s r. split; [|intros ->; apply (end_eol [10%N]); now left]. intro H.
  apply line_end_iff in H as [(e & [->| ->] & E)|[E _]]; [now injection E|discriminate|discriminate].
Qed.
Lemma line_end_nil : forall r, line_end [] r -> r = [].
Proof. intros r H. apply line_end_iff in H as [(e & [->| ->] & E)|[_ ->]]; [discriminate|discriminate|reflexivity]. Qed.

Definition not_nl (c : char) : bool := negb (N.eqb c 10 || N.eqb c 13).
Lemma not_nl_all : forall v, all not_nl v <-> ~ In 10%N v /\ ~ In 13%N v.
Proof.
  induction v as [|c v IH]; [split; [now split|constructor]|]. unfold all in *. split.
  - intro H. inversion H as [|? ? H1 H2]; subst. apply IH in H2 as [A B]. unfold not_nl in H1. rewrite negb_true_iff, orb_false_iff, !N.eqb_neq in H1.
    split; intros [X|X]; auto; now destruct H1.
  - intros [A B]. apply Forall_cons; [|apply IH; split; intro X; [apply A|apply B]; now right].
    unfold not_nl. rewrite negb_true_iff, orb_false_iff, !N.eqb_neq. split; intros ->; [apply A|apply B]; now left.
Qed.
Lemma exact_plain0 : exact not_eof_or_eol0 (fun s v r => s = v ++ r /\ all not_nl v /\ exists r', line_end r r').
Proof.
  assert (NL : exact not_line_ending (fun s v r => s = v ++ r /\ all not_nl v /\ exists r', line_end r r')).
  { split.
    - intro s. unfold not_line_ending. destruct (span _ s) as [a [|c b]]; [discriminate|]. destruct (N.eqb c 13); [|discriminate].
      destruct b as [|d b]; [discriminate|]. destruct (N.eqb d 10); discriminate.
    - intros s r v. unfold not_line_ending. destruct (span _ s) as [a b] eqn:E. apply span_iff in E as (-> & Ha & Hb).
      change (fun c => negb (N.eqb c 10 || N.eqb c 13)) with not_nl in *. split.
      + intro X. assert (b = r /\ a = v /\ exists r', line_end b r') as (-> & -> & Y); [|auto].
        destruct b as [|c b].
        { injection X as <- <-. split; [reflexivity|]. split; [reflexivity|]. exists []. constructor. }
        apply not_first_cons in Hb. unfold not_nl in Hb. rewrite negb_false_iff, orb_true_iff, !N.eqb_eq in Hb. destruct (N.eqb c 13) eqn:C.
        * apply N.eqb_eq in C as ->. destruct b as [|d b]; [discriminate|]. destruct (N.eqb d 10) eqn:D; [|discriminate]. apply N.eqb_eq in D as ->.
          injection X as <- <-. split; [reflexivity|]. split; [reflexivity|]. exists b. apply (end_eol [13%N; 10%N]). now right.
        * apply N.eqb_neq in C. destruct Hb as [->|]; [|congruence]. injection X as <- <-. split; [reflexivity|]. split; [reflexivity|]. exists b. now apply line_end_lf.
      + intros (E & Hv & r' & L).
        assert (not_first not_nl r) as Hr.
        { destruct r as [|c r]; [apply not_first_nil|]. apply not_first_cons. apply line_end_first in L as [->| ->]; reflexivity. }
        assert (X : span not_nl (a ++ b) = (v, r)) by (apply span_iff; auto).
        assert (Y : span not_nl (a ++ b) = (a, b)) by (apply span_iff; auto).
        rewrite X in Y. injection Y as -> ->. destruct b as [|c b]; [reflexivity|]. destruct (N.eqb c 13) eqn:C; [|reflexivity].
        apply N.eqb_eq in C as ->. apply line_end_cr in L as ->. reflexivity. }
  unfold not_eof_or_eol0, alt. eapply exact_iff; [eapply exact_or; [exact NL|apply exact_eof]|]. intros s v r. cbv beta. split.
  - intros [H|(N & -> & -> & ->)]; [exact H|]. elim N. exists [], []. split; [reflexivity|]. split; [constructor|]. exists []. constructor.
  - now left.
Qed.
Lemma exact_plain_line : exact (line_terminated not_eof_or_eol0) plain_line.
Proof.
  eapply exact_iff; [apply exact_lt, exact_plain0|]. intros s v r. unfold plain_line. split.
  - intros (m & (-> & H & _) & L). apply not_nl_all in H as [H1 H2]. eauto 6.
  - intros (m & -> & H1 & H2 & L). exists m. split; [|exact L]. split; [reflexivity|]. split; [now apply not_nl_all|eauto].
Qed.

(** ** Text up to the end of the line *)
Definition rest_text (s v r : str) : Prop := s = v ++ r /\ v <> [] /\ ~ In 10%N v /\ (exists r', line_end r r') /\
    ~ (begins_with 10%N r /\ exists u, v = u ++ [13%N]).
Lemma text_units : forall s l r, many_of (fun s c r => s = c :: r /\ ~ exists r', line_end s r') s l r <->
  s = l ++ r /\ ~ In 10%N l /\ (exists r', line_end r r') /\ ~ (begins_with 10%N r /\ exists u, l = u ++ [13%N]).
Proof.
  intros s l r. split.
  - induction 1 as [s N|s c m l r [-> X] L Y IH].
    + split; [reflexivity|]. split; [auto|]. split.
      * destruct s as [|c s]; [exists []; constructor|]. destruct (eof_or_eol (c :: s)) as [r' v| |] eqn:E.
        -- apply (exact_inv _ _ exact_eof_or_eol) in E as [_ E]. eauto.
        -- elim N. exists c, s. split; [reflexivity|]. intros (r' & L). apply line_end_iff in L as K. destruct K as [(e & _ & E')|[E' _]]; [|discriminate].
           assert (Z : eof_or_eol (c :: s) = Ok r' e) by (apply (exact_ok _ _ exact_eof_or_eol); auto). congruence.
        -- now elim (proj1 exact_eof_or_eol (c :: s)).
      * intros [_ [[|? ?] E]]; discriminate.
    + destruct IH as (-> & I1 & I2 & I3). split; [reflexivity|]. split; [|split; [exact I2|]].
      * intros [->|I]; [|now apply I1]. apply X. exists (l ++ r). now apply line_end_lf.
      * intros [B [u E]]. destruct u as [|x u].
        -- injection E as -> ->. apply X. destruct B as [t ->]. exists t. apply (end_eol [13%N; 10%N]). now right.
        -- injection E as <- ->. apply I3. eauto.
  - intros (-> & N & (r' & L) & B). induction l as [|c l IH].
    + apply many_stop. intros (c & t & _ & X). apply X. eauto.
    + refine (many_step _ _ c _ _ _ _ _ (IH _ _)).
      * split; [reflexivity|]. intros (q & Q). apply line_end_first in Q as K. destruct K as [->| ->]; [apply N; now left|].
        cbn [app] in Q. apply line_end_cr in Q. destruct l as [|x l]; cbn in Q.
        -- apply B. subst r. split; [now exists q|now exists []].
        -- injection Q as -> _. apply N. right. now left.
      * cbn. unfold char, str in *. lia.
      * intro I. apply N. now right.
      * intros [B1 [u ->]]. apply B. split; [exact B1|]. now exists (c :: u).
Qed.
Lemma exact_rest_text : exact not_eof_or_eol1 rest_text.
Proof.
  unfold not_eof_or_eol1. assert (X : exact (preceded (not_ eof_or_eol) anychar) (fun s c r => s = c :: r /\ ~ exists r', line_end s r')).
  { eapply exact_iff; [ex; apply exact_eof_or_eol|]. intros s c r. cbv beta. split.
    - intros (a & m & (-> & N) & ->). split; [reflexivity|]. intros (r' & L). apply N. apply line_end_iff in L as K.
      destruct K as [(e & _ & E)|[E _]]; [|discriminate]. exists e, r'. auto.
    - intros (-> & N). exists tt, (c :: r). split; [|reflexivity]. split; [reflexivity|]. intros (a & r' & _ & L). eauto. }
  eapply exact_iff; [eapply exact_recognize; [eapply exact_many1; [exact X|eats]|eats]|]. intros s v r. cbv beta. unfold rest_text. split.
  - intros (-> & l & N & H). apply text_units in H as (E & H). apply app_inv_tail in E as ->. tauto.
  - intros (-> & N & H). split; [reflexivity|]. exists v. split; [exact N|]. apply text_units. tauto.
Qed.
Lemma exact_text_line : exact (line_terminated not_eof_or_eol1) text_line.
Proof.
  eapply exact_iff; [apply exact_lt, exact_rest_text|]. intros s v r. unfold text_line, rest_text. split.
  - intros (m & (-> & H1 & H2 & _ & H3) & L). exists m. auto.
  - intros (m & -> & H1 & H2 & L & H3). exists m. split; [|exact L]. split; [reflexivity|]. eauto 6.
Qed.
Lemma exact_blank_space : exact (line_terminated space0) (fun s w r => exists m, s = w ++ m /\ all is_space w /\ line_end m r).
Proof.
  eapply exact_iff; [apply exact_lt; ex|]. intros s w r. cbv beta. split.
  - intros (m & (-> & H & _) & L). eauto.
  - intros (m & -> & H & L). exists m. split; [|exact L]. split; [reflexivity|]. split; [exact H|].
    intros c [t ->]. apply line_end_first in L as [->| ->]; reflexivity.
Qed.
Lemma eats_blank_space : eats false (line_terminated space0). Proof. unfold line_terminated. eats. Qed.
Lemma exact_blank_line : exact (recognize (line_terminated space0)) blank_line.
Proof.
  eapply exact_iff; [apply exact_recognize; [apply exact_blank_space|apply eats_blank_space]|]. intros s v r. cbv beta. unfold blank_line. split.
  - intros (E & w & m & H). eauto.
  - intros (E & w & m & H). eauto.
Qed.
Lemma blank_line_ex : forall s, applies blank_line s <-> exists w r, (exists m, s = w ++ m /\ all is_space w /\ line_end m r).
Proof.
  intro s. unfold applies, blank_line. split.
  - intros (v & r & E & w & m & H). eauto.
  - intros (w & r & m & -> & H & L). apply line_end_iff in L as K. destruct K as [(e & E & ->)|[-> ->]].
    + exists (w ++ e), r. split; [now rewrite app_assoc|]. eauto.
    + exists w, []. split; [reflexivity|]. eauto.
Qed.
(** several blank lines: the parsed values are the blanks only, the rule keeps the lines *)
Lemma blanks_repeated : forall s m, (exists l, repeated (fun s w r => exists m, s = w ++ m /\ all is_space w /\ line_end m r) s l m) <->
  exists l, repeated blank_line s l m.
Proof.
  intros s m. split; intros [l H]; induction H as [s N|s a m l r X Y [l' IH]].
  - exists []. apply rep_stop. intro X. apply N. apply blank_line_ex in X as (w & r & X). now exists w, r.
  - destruct X as (q & -> & Ha & L). assert (exists v, blank_line (a ++ q) v m) as [v V].
    { apply line_end_iff in L as K. destruct K as [(e & E & ->)|[-> ->]]; [exists (a ++ e)|exists a]; (split; [now rewrite ?app_assoc, ?app_nil_r|]); eauto. }
    exists (v :: l'). econstructor; eassumption.
  - exists []. apply rep_stop. intros (w & r & X). apply N. apply blank_line_ex. eauto.
  - destruct X as (E & w & q & X). exists (w :: l'). econstructor; [|exact IH]. eauto.
Qed.

(** ** Indentation *)
Lemma exact_strip : forall k, exact (many_m_n 0 k (chr " ")) (fun s v m => exists j, v = rep j c_sp /\ s = v ++ m /\ j <= k /\ (j < k -> ~ begins_with c_sp m)).
Proof.
  intro k. eapply exact_iff; [apply exact_spaces; lia|]. intros s v m. cbv beta. split; intros (j & -> & -> & H1 & H2); exists j; repeat split; auto; lia.
Qed.
Lemma exact_strip_then : forall k A (p : parser A) R, exact p R ->
  exact (preceded (many_m_n 0 k (chr " ")) p) (fun s a r => exists m, strip k s m /\ R m a r).
Proof.
  intros k A p R H. eapply exact_iff; [ex; [apply exact_strip|exact H]|]. intros s a r. cbv beta. unfold strip. split.
  - intros (v & m & (j & -> & -> & H1 & H2) & X). exists m. split; [exists j; auto|exact X].
  - intros (m & (j & -> & H1 & H2) & X). exists (rep j c_sp), m. split; [exists j; auto|exact X].
Qed.
(** up to three spaces before something that does not begin with a space *)
Lemma exact_up3 : forall A (p : parser A) R, exact p R -> (forall t a r, ~ R (c_sp :: t) a r) ->
  exact (preceded up_to_3_spaces p) (fun s a r => exists k m, s = rep k c_sp ++ m /\ k <= 3 /\ R m a r).
Proof.
  intros A p R H N. eapply exact_iff; [apply exact_strip_then, H|]. intros s a r. cbv beta. unfold strip. split.
  - intros (m & (j & -> & H1 & H2) & X). eauto 6.
  - intros (k & m & -> & L & X). exists m. split; [|exact X]. exists k. split; [reflexivity|]. split; [exact L|].
    intros _ [t ->]. exact (N _ _ _ X).
Qed.
