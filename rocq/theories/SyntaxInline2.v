(** The inline parser computes the inline grammar: recursive constructs. *)
From Coq Require Import String.
From Verif Require Import SpecParser Nom NomFacts ParserLeaf ParserTotal ParserCode ParserInline ParserInlineFacts ParserProps ManyFacts SpecInline SyntaxFacts SyntaxInline NumFacts.
Import ListNotations.
Open Scope list_scope.
Local Notation len := (@List.length _).

Lemma exact_safe : forall A (p : parser A) R, exact p R -> safe p. Proof. now intros A p R [H _]. Qed.
Lemma exact_nested : forall A (p : parser A) (x : str), p x <> Oof ->
  exact (nested p x) (fun s a r => r = s /\ exists r', p x = Ok r' a).
Proof.
  intros A p x H. unfold nested. split.
  - intro s. destruct (p x); [discriminate|discriminate|congruence].
  - intros s r a. destruct (p x) as [r' b| |]; [|split; [discriminate|now intros (_ & r' & E)]|congruence]. split.
    + intro E. injection E as <- <-. eauto.
    + intros (-> & r'' & E). now injection E as <- <-.
Qed.

Lemma many_of_len : forall A (R : str -> A -> str -> Prop) s l r, many_of R s l r -> len r <= len s.
Proof. intros A R s l r H. induction H; unfold char, str in *; lia. Qed.
Lemma many_of_nil : forall A (R : str -> A -> str -> Prop) s r, many_of R s [] r -> s = r.
Proof. intros A R s r H. now inversion H. Qed.
Lemma many_of_same : forall A (R : str -> A -> str -> Prop) l r, many_of R r l r -> l = [].
Proof. intros A R l r H. inversion H as [|s a m l' r' X L Y]; subst; [reflexivity|]. apply many_of_len in Y. unfold char, str in *. lia. Qed.
(** ** Delimited content *)
Inductive scan (esc : char) (stop : str -> Prop) : str -> str -> Prop :=
| scan_here : forall r, stop r \/ r = [] -> scan esc stop [] r
| scan_esc : forall c r, ~ stop (ch "\" :: esc :: c ++ r) -> scan esc stop c r -> scan esc stop (ch "\" :: esc :: c) r
| scan_char : forall x c r, ~ stop (x :: c ++ r) -> ~ (x = ch "\" /\ begins_with esc (c ++ r)) ->
    scan esc stop c r -> scan esc stop (x :: c) r.
Lemma scan_up_to : forall esc stop c r, up_to esc stop c r <-> scan esc stop c r /\ stop r.
Proof.
  intros esc stop c r. split.
  - intro H. induction H as [r H|c r N H [IH S]|x c r N M H [IH S]]; (split; [|assumption]); [apply scan_here|apply scan_esc|apply scan_char]; auto.
  - intros [H S]. induction H; [apply up_here|apply up_esc|apply up_char]; auto.
Qed.
Lemma scan_end : forall esc stop c r, scan esc stop c r -> stop r \/ r = [].
Proof. intros esc stop c r H. induction H; assumption. Qed.
Definition unit_step (esc : char) (s r : str) : Prop :=
  s = ch "\" :: esc :: r \/ (~ (exists t, s = ch "\" :: esc :: t) /\ exists x, s = x :: r).
Section Scan.
  Context {A B : Type} (step : parser A) (close : parser B) (Rs : str -> A -> str -> Prop) (Rc : str -> B -> str -> Prop) (esc : char).
  Hypothesis (Hs : exact step Rs) (Hc : exact close Rc) (Es : eats true step).
  Hypothesis HR : forall s r, (exists a, Rs s a r) <-> unit_step esc s r.
  Let stop (s : str) := exists b r, Rc s b r.
  Let body := preceded (peek (not_ close)) step.
  Lemma exact_body : exact body (fun s a r => ~ stop s /\ Rs s a r).
  Proof.
    eapply exact_iff; [eapply exact_preceded; [eapply exact_peek_not, Hc|exact Hs]|].
    intros s a r. unfold ahead. split; [intros ([] & m & (-> & N) & X); auto|intros [N X]; exists tt, s; auto].
  Qed.
  Lemma scan_many : forall c r, scan esc stop c r <-> exists l, many_of (fun s a r => ~ stop s /\ Rs s a r) (c ++ r) l r.
  Proof.
    intros c r. split.
    - intro H. induction H as [r H|c r N H [l IH]|x c r N M H [l IH]]; cbn [app].
      + exists []. apply many_stop. intros (a & r' & N & X). destruct H as [H| ->]; [now apply N|].
        assert (Y : unit_step esc [] r') by (apply HR; eauto). destruct Y as [Y|(_ & x & Y)]; discriminate.
      + destruct (proj2 (HR (ch "\" :: esc :: c ++ r) (c ++ r))) as [a X]; [now left|]. exists (a :: l).
        refine (many_step _ _ a _ _ _ _ _ IH); [auto|lenlia].
      + destruct (proj2 (HR (x :: c ++ r) (c ++ r))) as [a X].
        { right. split; [|eauto]. intros [t E]. apply M. injection E as -> E. split; [reflexivity|]. now exists t. }
        exists (a :: l). refine (many_step _ _ a _ _ _ _ _ IH); [auto|lenlia].
    - intros [l H]. remember (c ++ r) as s eqn:Es'. revert c Es'. induction H as [s N|s a m l r [N X] L Y IH]; intros c E.
      + assert (c = []) as ->. { apply (f_equal (@List.length char)) in E. rewrite app_length in E. destruct c; [reflexivity|lenlia]. }
        cbn in E. apply scan_here. destruct (exact_dec _ _ Hc s) as [D|D]; [now left|]. destruct s as [|x s]; [now right|].
        elim N. assert (Z : exists m, unit_step esc (x :: s) m).
        { destruct s as [|y s]; [exists []; right; split; [intros [t Z]; discriminate|eauto]|].
          destruct (N.eq_dec x (ch "\")) as [->|N1]; [destruct (N.eq_dec y esc) as [->|N2]|].
          - exists s. now left.
          - exists (y :: s). right. split; [|eauto]. intros [t Z]. now injection Z.
          - exists (y :: s). right. split; [|eauto]. intros [t Z]. now injection Z. }
        destruct Z as [m Z]. apply HR in Z as [a Z]. exists a, m. auto.
      + assert (Z : exists c', m = c' ++ r). { clear - Y HR. induction Y as [|s a m l r X L Y [c' ->]]; [now exists []|].
          assert (Z : unit_step esc s (c' ++ r)) by (apply HR; exists a; apply X). destruct Z as [->|(_ & x & ->)]; [now exists (ch "\" :: esc :: c')|now exists (x :: c')]. }
        destruct Z as [c' ->]. specialize (IH c' eq_refl). assert (Z : unit_step esc s (c' ++ r)) by (apply HR; eauto). destruct Z as [->|(Z & x & ->)].
        * change (ch "\" :: esc :: c' ++ r) with ((ch "\" :: esc :: c') ++ r) in E. apply app_inv_tail in E as <-. apply scan_esc; assumption.
        * change (x :: c' ++ r) with ((x :: c') ++ r) in E. apply app_inv_tail in E as <-. apply scan_char; [assumption| |assumption].
          intros [-> [t F]]. rewrite F in Z. apply Z. eauto.
  Qed.
  Lemma exact_scan : exact (recognize (many1 body)) (fun s v r => s = v ++ r /\ v <> [] /\ scan esc stop v r).
  Proof.
    eapply exact_iff.
    - eapply exact_recognize; [eapply exact_many1; [apply exact_body|unfold body; eats]|unfold body; eats].
    - intros s v r. split.
      + intros (-> & l & N & H). split; [reflexivity|]. split; [|apply scan_many; eauto].
        intros ->. inversion H as [|? ? ? ? ? _ L Y]; subst; [now elim N|]. clear - Y L HR.
        assert (len r <= len m); [|cbn in L; lia]. clear L. induction Y as [|s a m l r X L Y IH]; [lia|]. unfold char, str in *. lia.
      + intros (-> & N & H). split; [reflexivity|]. apply scan_many in H as [l H]. exists l. split; [|exact H].
        intros E. apply N. remember (v ++ r) as q eqn:Eq. destruct H as [q _|]; [|discriminate]. apply (f_equal (@List.length char)) in Eq. rewrite app_length in Eq.
        destruct v; [reflexivity|lenlia].
  Qed.
End Scan.

(** ** Elements with content; [RI]: how the content is read *)
Inductive builds_by (RI : str -> list inline -> Prop) : piece -> inline -> Prop :=
| Y_autolink : forall u, builds_by RI (PAutolink u) (IAutolink u)
| Y_link : forall text d t c, RI text c -> builds_by RI (PLink text d t) (ILink (Link d t c))
| Y_footnote : forall l, builds_by RI (PFootnote l) (IFootnoteReference l)
| Y_full : forall text label a b, RI text a -> RI label b ->
    builds_by RI (PReference text (Some label)) (ILinkReference (LinkReference b a))
| Y_short : forall text a, RI text a -> builds_by RI (PReference text None) (ILinkReference (LinkReference a a))
| Y_break : builds_by RI PBreak ILineBreak
| Y_image : forall d t a, builds_by RI (PImage d t a) (IImage (Image d t a))
| Y_code : forall c, builds_by RI (PCode c) (ICode c)
| Y_word : forall w, builds_by RI (PWord w) (IText w)
| Y_emphasis : forall text c, RI text c -> builds_by RI (PEmph 1 text) (IEmphasis c)
| Y_strong : forall text c, RI text c -> builds_by RI (PEmph 2 text) (IStrong c)
| Y_both : forall text c, RI text c -> builds_by RI (PEmph 3 text) (IStrong [IEmphasis c])
| Y_strike : forall text c, RI text c -> builds_by RI (PStrike text) (IStrikethrough c)
| Y_text : forall t, builds_by RI (PText t) (IText t).

Lemma exact_nested_any : forall A (p : parser A), safe p -> forall x, exact (nested p x) (fun s a r => r = s /\ exists r', p x = Ok r' a).
Proof. intros. apply exact_nested, H. Qed.
Lemma exact_code : exact p_code_span (fun s c r => exists n raw, code_span_source n raw r s /\ code_content raw c).
Proof.
  split; [|intros; apply code_span_exact]. unfold p_code_span. cbv zeta. eapply exact_safe. ex.
Qed.
Lemma bracket_fun : forall s t r t' r', bracket_at s t r -> bracket_at s t' r' -> t = t' /\ r = r'.
Proof.
  assert (H : forall s t r, bracket_at s t r -> p_link_label (fun x => Ok [] [IText x]) s = Ok r [IText t]).
  { intros s t r (raw & -> & H1 & H2). apply link_label_exact. exists raw, t, []. auto. }
  intros s t r t' r' X X'. apply H in X, X'. rewrite X in X'. injection X' as -> ->. auto.
Qed.
Lemma bracket_brackets : forall t r r', ~ bracket_at (lit "[]" ++ r) t r'.
Proof.
  intros t r r' (raw & E & H & F). injection E as E. destruct raw as [|c raw]; [inversion H; subst; destruct F as [_ F]; inversion F|].
  injection E as <- _. inversion H; congruence.
Qed.
Section Rec.
  Variable cfg : config.
  Variable rec : parser (list inline).
  Hypothesis Hsafe : safe rec.
  Hypothesis Hall : forall x, x <> [] -> exists l, rec x = Ok [] l.
  Let RI (x : str) (l : list inline) := rec x = Ok [] l.
  Lemma rec_ok : forall x r l, x <> [] -> rec x = Ok r l -> r = [] /\ RI x l.
  Proof. intros x r l N E. destruct (Hall x N) as [l' E']. unfold RI. rewrite E in *. injection E' as -> ->. auto. Qed.
  Definition built (R : rule piece) (s : str) (i : inline) (r : str) : Prop := exists p, R s p r /\ builds_by RI p i.

  Lemma label_nonempty : forall l, label_fits l -> l <> [].
  Proof. intros l [_ H] ->. inversion H. Qed.
  Lemma exact_label : exact (p_link_label rec) (fun s x r => exists text, bracket_at s text r /\ RI text x).
  Proof.
    split.
    - unfold p_link_label, p_label_chars. eapply exact_safe. ex. apply exact_nested_any, Hsafe.
    - intros s r x. rewrite link_label_exact. split.
      + intros (raw & l & r' & -> & H1 & H2 & E). apply rec_ok in E as [-> E]; [|now apply label_nonempty]. exists l. split; [|exact E]. now exists raw.
      + intros (l & (raw & -> & H1 & H2) & E). exists raw, l, []. auto.
  Qed.
  Lemma exact_link : exact (pmap ILink (p_inline_link rec)) (built r_link).
  Proof.
    unfold p_inline_link. eapply exact_iff; [ex; [apply exact_label|apply exact_link_tail]|]. intros s i r. cbv beta. unfold built. split.
    - intros (l & (x & m & (text & H & E) & d & t & m' & H1 & -> & ->) & ->). exists (PLink text d t). split; [econstructor; eassumption|now constructor].
    - intros (p & H & B). inversion H; subst. inversion B; subst. eexists. split; [|reflexivity]. eauto 12.
  Qed.
  Lemma exact_reference : exact (p_reference_link rec) (built r_reference).
  Proof.
    unfold p_reference_link. eapply exact_iff; [ex; apply exact_label|]. intros s i r. cbv beta. unfold built. split.
    - intros [(x & m & (text & H & E) & y & m' & (label & H' & E') & -> & ->)|[N0 [(x & (m & _ & (text & H & E) & _ & ->) & ->)|(N & x & (text & H & E) & ->)]]].
      + exists (PReference text (Some label)). split; [econstructor; eassumption|now constructor].
      + exists (PReference text None). split; [now constructor|now constructor].
      + exists (PReference text None). split; [|now constructor]. apply R_shortcut; [exact H| |].
        * intros l r' X. destruct (Hall l) as [b Eb]; [destruct X as (? & _ & _ & X); now apply label_nonempty|]. apply N0. do 4 eexists. split; [exists text; eauto|]. eauto 8.
        * intros r' ->. apply N. do 3 eexists. split; [|reflexivity]. do 2 eexists. split; [exists text; eauto|]. auto.
    - intros (p & H & B). inversion H as [s0 text m label r0 H1 H2|s0 text r0 H1|s0 text r0 H1 H2 H3]; subst; inversion B; subst.
      + left. do 2 eexists. split; [exists text; eauto|]. do 2 eexists. split; [exists label; eauto|]. auto.
      + right. split.
        * intros (a' & r' & x & m & (text' & X & _) & y & m' & (l & Y & _) & _). destruct (bracket_fun _ _ _ _ _ H1 X) as [<- <-]. now apply bracket_brackets in Y.
        * left. eexists. split; [|reflexivity]. do 2 eexists. split; [exists text; eauto|]. auto.
      + right. split; [|right; split].
        * intros (a' & r' & x & m & (text' & X & _) & y & m' & (l & Y & _) & _). destruct (bracket_fun _ _ _ _ _ H1 X) as [<- <-]. now apply H2 in Y.
        * intros (a' & r' & x & (m & y & (text' & X & _) & _ & E) & _). destruct (bracket_fun _ _ _ _ _ H1 X) as [<- <-]. now apply H3 in E.
        * eexists. split; [|reflexivity]. exists text. auto.
  Qed.

  (** emphasis *)
  Local Notation punctuation := (punctuation (punct_table cfg)).
  Local Notation opens := (opens (punct_table cfg)).
  Local Notation run_closes := (run_closes (punct_table cfg)).
  Local Notation delimited_by := (delimited_by (punct_table cfg)).
  Local Notation r_emphasis := (r_emphasis (punct_table cfg)).
  Lemma punct_iff : forall c, is_punct cfg c = true <-> punctuation c.
  Proof. intro c. unfold is_punct, SpecInline.punctuation. apply orb_true_iff. Qed.
  Lemma can_open_iff : forall m t r, can_open cfg m (nth_error (t ++ r) (len t)) = true <-> opens m r.
  Proof.
    intros m t r. rewrite nth_error_app2 by lia. rewrite Nat.sub_diag. unfold can_open, SpecInline.opens. destruct r as [|c r]; cbn.
    - split; [discriminate|]. intros (c & t' & E & _). discriminate.
    - assert (X : negb (is_punct cfg c) || is_punct cfg c = true) by now destruct (is_punct cfg c). rewrite X, andb_true_r, negb_involutive. clear X.
      destruct (is_whitespace c) eqn:W.
      + split; [discriminate|]. intros (x & t' & E & W' & _). injection E as <- <-. congruence.
      + cbn [orb]. destruct (N.eqb_spec m 95%N) as [->|Nm].
        * rewrite negb_true_iff. split.
          -- intro P. exists c, r. split; [reflexivity|]. split; [exact W|]. intros _ Q. apply punct_iff in Q. congruence.
          -- intros (x & t' & E & _ & H). injection E as <- <-. destruct (is_punct cfg c) eqn:P; [|reflexivity]. apply punct_iff in P. now elim H.
        * split; [|reflexivity]. intros _. exists c, r. split; [reflexivity|]. split; [exact W|]. intro E. congruence.
  Qed.
  Lemma can_close_iff : forall m t r, can_close cfg m (nth_error (t ++ r) (len t)) = true <-> forall c, begins_with c r -> is_whitespace c = true \/ punctuation c.
  Proof.
    intros m t r. rewrite nth_error_app2 by lia. rewrite Nat.sub_diag. unfold can_close. destruct r as [|c r]; cbn.
    - split; [intros _ c [t' E]; discriminate|]. intros _. now destruct (N.eqb m _).
    - transitivity (is_whitespace c || is_punct cfg c = true).
      + destruct (is_whitespace c), (is_punct cfg c), (N.eqb m 95%N); cbn; intuition congruence.
      + rewrite orb_true_iff, punct_iff. split; [intros H x [t' E]; now injection E as <- <-|]. intro H. apply (H c). now exists r.
  Qed.
  Lemma exact_open : forall m t, exact (p_open_tag cfg (m :: t)) (fun s _ r => s = (m :: t) ++ r /\ opens m r).
  Proof.
    intros m t. unfold p_open_tag. split.
    - intro s. eapply exact_safe. ex.
    - intros s r []. match goal with |- p_unit ?p s = _ <-> _ => pose proof (fun R H => proj2 (exact_unit _ p R H) s r tt) as X end.
      rewrite X by (eapply exact_verify, exact_tag). cbv beta. split.
      + intros (a & [-> ->] & E). split; [reflexivity|]. apply can_open_iff in E. exact E.
      + intros [-> E]. exists (m :: t). split; [auto|]. apply can_open_iff. exact E.
  Qed.
  Lemma exact_close : forall m t, exact (p_close_tag cfg (m :: t)) (fun s _ r => s = (m :: t) ++ r /\ forall c, begins_with c r -> is_whitespace c = true \/ punctuation c).
  Proof.
    intros m t. unfold p_close_tag. split.
    - intro s. eapply exact_safe. ex.
    - intros s r []. match goal with |- p_unit ?p s = _ <-> _ => pose proof (fun R H => proj2 (exact_unit _ p R H) s r tt) as X end.
      rewrite X by (eapply exact_verify, exact_tag). cbv beta. split.
      + intros (a & [-> ->] & E). split; [reflexivity|]. exact (proj1 (can_close_iff m (m :: t) r) E).
      + intros [-> E]. exists (m :: t). split; [auto|]. exact (proj2 (can_close_iff m (m :: t) r) E).
  Qed.
  Lemma scan_ext : forall esc P Q c r, (forall s, P s <-> Q s) -> (scan esc P c r <-> scan esc Q c r).
  Proof.
    intros esc P Q c r E. split; intro H; induction H as [r H|c r N H IH|x c r N M H IH].
    - apply scan_here. now rewrite <- E.
    - apply scan_esc; [now rewrite <- E|exact IH].
    - apply scan_char; [now rewrite <- E|exact M|exact IH].
    - apply scan_here. now rewrite E.
    - apply scan_esc; [now rewrite E|exact IH].
    - apply scan_char; [now rewrite E|exact M|exact IH].
  Qed.
  Lemma esc_step : forall esc s r, (exists m, unit_step esc s m /\ m = r) <-> unit_step esc s r.
  Proof. intros. split; [now intros (m & H & <-)|eauto]. Qed.
  Lemma exact_content : forall m t, exact (recognize (many1 (preceded (peek (not_ (p_close_tag cfg (m :: t)))) (alt [p_unit (Nom.tag (lit "\*")); p_unit anychar]))))
    (fun s v r => s = v ++ r /\ v <> [] /\ scan (ch "*") (run_closes (m :: t)) v r).
  Proof.
    intros m t. eapply exact_iff.
    - eapply exact_scan with (esc := ch "*"); [ex|apply exact_close|eats|]. intros s r. cbv beta. unfold unit_step. split.
      + intros ([] & [(v & -> & ->)|(N & x & ->)]); [now left|]. right. split; [|eauto]. intros [t' E]. apply N. exists tt, t', (lit "\*"). auto.
      + intros [->|(N & x & ->)]; exists tt; [left; exists (lit "\*"); auto|]. right. split; [|eauto].
        intros (_ & r' & v & -> & E). apply N. now exists r'.
    - intros s v r. cbv beta. erewrite scan_ext; [reflexivity|]. intro q. unfold SpecInline.run_closes. split; [now intros (_ & r' & H); exists r'|]. intros [r' H]. exists tt, r'. exact H.
  Qed.
  Lemma exact_emph : forall m t, exact (p_emph cfg rec (m :: t)) (fun s x r => exists text, delimited_by (m :: t) s text r /\ RI text x).
  Proof.
    intros m t. unfold p_emph, p_emphasis_content. eapply exact_iff.
    - eapply exact_delimited; [apply exact_open| |apply exact_close].
      eapply exact_bind; [apply exact_content|intro; apply exact_nested_any, Hsafe].
    - intros s x r. cbv beta. unfold SpecInline.delimited_by. split.
      + intros (_ & m1 & m2 & _ & [-> Ho] & (text & m3 & (-> & N & H) & -> & r' & E) & -> & Hc).
        apply rec_ok in E as [-> E]; [|exact N]. exists text. split; [|exact E]. exists m. split; [reflexivity|]. split; [now exists t|]. split; [exact Ho|].
        split; [exact N|]. apply scan_up_to. split; [exact H|]. exists r. auto.
      + intros (text & (m' & -> & [t' B] & Ho & N & H) & E). injection B as <- <-. apply scan_up_to in H as [H (r0 & E0 & Hc)]. apply app_inv_head in E0 as <-.
        exists tt, (text ++ (m :: t) ++ r), ((m :: t) ++ r), tt. split; [auto|]. split; [|auto]. exists text, ((m :: t) ++ r). split; [auto|]. split; [reflexivity|eauto].
  Qed.
  Lemma delimited_first : forall n m m' n' s t r t' r', 1 <= n -> 1 <= n' -> delimited_by (rep n m) s t r -> delimited_by (rep n' m') s t' r' -> m = m'.
  Proof.
    intros n m m' n' s t r t' r' L L' (x & -> & _) (x' & E & _). destruct n, n'; try lia. now injection E.
  Qed.
  Definition D n m (s : str) (x : list inline) (r : str) := exists text, delimited_by (rep n m) s text r /\ RI text x.
  Lemma D_ex : forall n m s, (exists x r, D n m s x r) <-> exists text r, delimited_by (rep n m) s text r.
  Proof.
    intros n m s. split; [intros (x & r & text & H & _); eauto|]. intros (text & r & H). destruct (Hall text) as [x E]; [destruct H as (? & _ & _ & _ & N & _); exact N|].
    exists x, r, text. auto.
  Qed.
  Definition D2 n (s : str) (x : list inline) (r : str) := exists m, In m (lit "*_") /\ D n m s x r.
  Lemma D2_iff : forall n s x r, 1 <= n -> (D n (ch "*") s x r \/ ~ (exists x r, D n (ch "*") s x r) /\ D n (ch "_") s x r) <-> D2 n s x r.
  Proof.
    intros n s x r L. unfold D2. split.
    - intros [H|[_ H]]; eexists; (split; [|exact H]); cbn; auto.
    - intros (m & [<-|[<-|[]]] & H); [now left|]. right. split; [|exact H]. intros (x' & r' & t' & H' & _). destruct H as (t & H & _).
      pose proof (delimited_first _ _ _ _ _ _ _ _ _ L L H H'). discriminate.
  Qed.
  Definition emph_any n (f : list inline -> inline) s i r := exists x, D2 n s x r /\ i = f x.
  Lemma exact_emph_n : forall n f, 1 <= n -> exact (pmap f (alt [p_emph cfg rec (rep n (ch "*")); p_emph cfg rec (rep n (ch "_"))])) (emph_any n f).
  Proof.
    intros [|n] f L; [lia|]. eapply exact_iff; [cbn [rep repeat]; ex; apply exact_emph|]. cbv beta. intros s i r. unfold emph_any. split.
    - intros (x & H & ->). exists x. split; [|reflexivity]. now apply D2_iff.
    - intros (x & H & ->). exists x. split; [|reflexivity]. apply D2_iff in H; [exact H|lia].
  Qed.
  Lemma emph_rule : forall n s i r f, (forall x y, builds_by RI (PEmph n x) y <-> exists c, RI x c /\ y = f c) -> 1 <= n <= 3 ->
    (forall n', n < n' <= 3 -> ~ exists x r, D2 n' s x r) -> emph_any n f s i r -> built r_emphasis s i r.
  Proof.
    intros n s i r f Hf L N (x & (m & Hm & text & H & E) & ->). exists (PEmph n text). split; [|apply Hf; eauto].
    apply R_emphasis with (m := m); auto. intros n' text' r' L' H'. apply (N n' L'). destruct (proj2 (D_ex n' m s)) as (x' & r'' & H''); [eauto|].
    exists x', r'', m. auto.
  Qed.
  Lemma emph_rule' : forall n s text i r f, (forall x y, builds_by RI (PEmph n x) y <-> exists c, RI x c /\ y = f c) ->
    r_emphasis s (PEmph n text) r -> builds_by RI (PEmph n text) i -> emph_any n f s i r /\ forall n' g, n < n' <= 3 -> ~ exists i r, emph_any n' g s i r.
  Proof.
    intros n s text i r f Hf H B. inversion H as [m n0 s0 text0 r0 Hm L Hd N]; subst. apply Hf in B as (c & Hc & ->). split.
    - exists c. split; [|reflexivity]. exists m. split; [exact Hm|]. exists text. auto.
    - intros n' g L' (i & r' & x & (m' & Hm' & text' & H' & _) & _). assert (L'' : 1 <= n') by lia. pose proof (delimited_first _ _ _ _ _ _ _ _ _ (proj1 L) L'' Hd H') as <-.
      now apply (N n' text' r').
  Qed.
  Lemma exact_emphasis : exact (p_emphasis cfg rec) (built r_emphasis).
  Proof.
    unfold p_emphasis. eapply exact_iff.
    - ex1; eapply exact_or; [apply (exact_emph_n 3 (fun inner => IStrong [IEmphasis inner])); lia|].
      ex1; eapply exact_or; [apply (exact_emph_n 2 IStrong); lia|apply (exact_emph_n 1 IEmphasis); lia].
    - intros s i r. cbv beta.
      assert (B3 : forall x y, builds_by RI (PEmph 3 x) y <-> exists c, RI x c /\ y = IStrong [IEmphasis c]).
      { intros x y. split; [intro B; inversion B; subst; eauto|intros (c & H & ->); now constructor]. }
      assert (B2 : forall x y, builds_by RI (PEmph 2 x) y <-> exists c, RI x c /\ y = IStrong c).
      { intros x y. split; [intro B; inversion B; subst; eauto|intros (c & H & ->); now constructor]. }
      assert (B1 : forall x y, builds_by RI (PEmph 1 x) y <-> exists c, RI x c /\ y = IEmphasis c).
      { intros x y. split; [intro B; inversion B; subst; eauto|intros (c & H & ->); now constructor]. }
      split.
      + intros [H|[N3 [H|[N2 H]]]].
        * eapply emph_rule; [exact B3|lia| |exact H]. intros. lia.
        * eapply emph_rule; [exact B2|lia| |exact H]. intros n' L (x & r' & X). assert (n' = 3) as -> by lia. apply N3. exists (IStrong [IEmphasis x]), r', x. auto.
        * eapply emph_rule; [exact B1|lia| |exact H]. intros n' L (x & r' & X). assert (n' = 3 \/ n' = 2) as [-> | ->] by lia.
          -- apply N3. exists (IStrong [IEmphasis x]), r', x. auto.
          -- apply N2. exists (IStrong x), r', x. auto.
      + intros (p & H & B). inversion H as [m n s0 text r0 Hm L Hd N]; subst. assert (n = 3 \/ n = 2 \/ n = 1) as [->|[->| ->]] by lia.
        * destruct (emph_rule' _ _ _ _ _ _ B3 H B) as [X _]. now left.
        * destruct (emph_rule' _ _ _ _ _ _ B2 H B) as [X Y]. right. split; [|now left]. apply Y. lia.
        * destruct (emph_rule' _ _ _ _ _ _ B1 H B) as [X Y]. right. split; [apply Y; lia|]. right. split; [apply Y; lia|exact X].
  Qed.
  (** strikethrough *)
  Lemma exact_strike : exact (p_strikethrough rec) (built r_strike).
  Proof.
    unfold p_strikethrough. cbv zeta. eapply exact_iff.
    - eapply exact_bind; [ex|]. intro. eapply exact_bind.
      + eapply exact_scan with (esc := ch "~"); [ex|ex|eats|]. intros s r. cbv beta. unfold unit_step. split.
        * intros (x & [(-> & v & -> & ->)|(N & ->)]); [now left|]. right. split; [|eauto]. intros [t' E]. apply N. exists (ch "~"), t'. split; [reflexivity|]. exists (lit "\~"). auto.
        * intros [->|(N & x & ->)]; [exists (ch "~"); left; split; [reflexivity|]; exists (lit "\~"); auto|]. exists x. right. split; [|reflexivity].
          intros (c & r' & -> & v & -> & E). apply N. now exists r'.
      + intro. ex. apply exact_nested_any, Hsafe.
    - cbv beta. intros s i r.
      assert (T : forall s, (exists (b : str) r, exists (a : unit) m, ahead (fun s => ~ (exists (a : str * char) r0, exists m0, (fst a = lit "~~" /\ s = lit "~~" ++ m0) /\ snd a = ch "~" /\ m0 = ch "~" :: r0)) s a m /\ b = lit "~~" /\ m = lit "~~" ++ r) <-> tildes s).
      { intro q. unfold ahead, tildes. split.
        - intros (b & r' & [] & m & (<- & N) & -> & ->). exists r'. split; [reflexivity|]. intros [t ->]. apply N. exists (lit "~~", ch "~"), t, (ch "~" :: t). cbn. auto.
        - intros (r' & -> & N). exists (lit "~~"), r', tt, (lit "~~" ++ r'). split; [|auto]. split; [reflexivity|]. intros ([v x] & t & m0 & [_ E] & _ & ->).
          apply app_inv_head in E as ->. apply N. now exists t. }
      unfold built. split.
      + intros (a0 & m & (m1 & y & (_ & ->) & (<- & N)) & text & m2 & (-> & Nt & H) & a1 & m3 & (_ & ->) & x & (-> & r' & E) & ->).
        rewrite (scan_ext _ _ _ _ _ T) in H. apply rec_ok in E as [-> E]; [|exact Nt]. exists (PStrike text). split; [|now constructor].
        assert (N' : ~ begins_with (ch "~") (text ++ lit "~~" ++ m3)). { intros [t' E']. apply N. exists (ch "~"), t'. auto. }
        constructor; [exact N'|exact Nt|]. apply scan_up_to. split; [exact H|]. destruct (scan_end _ _ _ _ H) as [Q|Q]; [exact Q|discriminate Q].
      + intros (p & H & B). inversion H as [text r0 N Nt U]; subst. inversion B as [| | | | | | | | | | | |text0 c Hc|]; subst.
        apply scan_up_to in U as [U Ht]. exists (lit "~~"), (text ++ lit "~~" ++ r). split.
        { exists (text ++ lit "~~" ++ r), tt. split; [auto|]. split; [reflexivity|]. intros (a & t & -> & E). apply N. now exists t. }
        exists text, (lit "~~" ++ r). split; [split; [reflexivity|]; split; [exact Nt|]; now rewrite (scan_ext _ _ _ _ _ T)|].
        exists (lit "~~"), r. split; [auto|]. exists c. split; [|reflexivity]. split; [reflexivity|]. now exists [].
  Qed.

  (** character references and text *)
  Lemma exact_entity : exact (p_html_entity cfg) (entity_at (html_entities cfg)).
  Proof.
    unfold p_html_entity. split.
    - eapply exact_safe. unfold p_entity_alpha, p_entity_numeric. ex.
    - intros s r v. cbn [alt]. assert (X : exact (p_entity_alpha cfg) (fun s v r => exists n, n <> [] /\ all is_alpha n /\ html_entities cfg (lit "&" ++ n ++ lit ";") = Some v /\ s = lit "&" ++ n ++ lit ";" ++ r)).
      { unfold p_entity_alpha. eapply exact_iff; [ex|]. clear. intros s v r. cbv beta. split.
        - intros (a & (-> & [x [n y]] & m & [Ex E] & m' & (N & -> & H1 & H2) & Ey & ->) & Hv). cbn [fst snd] in *. subst x y.
          change (ch "&" :: n ++ ch ";" :: r) with (lit "&" ++ n ++ lit ";" ++ r) in E.
          assert (a = lit "&" ++ n ++ lit ";") as ->. { apply (app_inv_tail r). rewrite E, <- !app_assoc. reflexivity. }
          exists n. rewrite <- !app_assoc. auto.
        - intros (n & N & H & Hv & ->). exists (lit "&" ++ n ++ lit ";"). split; [|exact Hv]. split; [now rewrite <- !app_assoc|].
          exists (ch "&", (n, ch ";")), (n ++ lit ";" ++ r). cbn [fst snd]. split; [auto|]. exists (lit ";" ++ r). split; [|auto]. split; [exact N|]. split; [reflexivity|].
          split; [exact H|]. now apply not_first_cons. }
      unfold or_else. destruct (p_entity_alpha cfg s) as [r0 v0| |] eqn:E0; [| |now elim (exact_safe _ _ _ X s)].
      + apply X in E0 as (n & N & H & Hv & ->). split.
        * intro Q. injection Q as <- <-. now constructor.
        * intro Q. inversion Q as [n' v' r' N' H' Hv' E|ds v' r' N' Hv' E|x hs v' r' Hx N' Hv' E]; subst.
          -- assert (W : p_entity_alpha cfg (lit "&" ++ n ++ lit ";" ++ r0) = Ok r v) by (apply X; exists n'; repeat (split; [assumption|]); cbn; f_equal; symmetry; exact E).
             rewrite (exact_ok _ _ X _ v0 r0) in W by (exists n; auto). now injection W as -> ->.
          -- destruct n; [now elim N|]. injection E as <- _. inversion H; discriminate.
          -- destruct n; [now elim N|]. injection E as <- _. inversion H; discriminate.
      + pose proof (proj1 (exact_err _ _ X s) E0) as N0. split.
        * intro E. apply entity_only in E as (w & -> & Hw & [(ds & -> & N & H & ->)|(x & ds & -> & Hx & N & H & ->)]).
          -- apply ent_dec; [now apply numeral_dec|now apply scalar_iff].
          -- apply ent_hex; [cbn; intuition|now apply numeral_hex|now apply scalar_iff].
        * intro Q. inversion Q as [n' v' r' N' H' Hv' E|ds v' r' N' Hv' E|x hs v' r' Hx N' Hv' E]; subst.
          -- elim N0. exists v, r, n'. auto.
          -- apply numeral_dec in N' as (N' & H' & ->). apply scalar_iff in Hv'. rewrite entity_decimal by assumption. unfold numeric_result. now rewrite Hv'.
          -- apply numeral_hex in N' as (N' & H' & ->). apply scalar_iff in Hv'. rewrite entity_hex; [|cbn in Hx; intuition|exact N'|exact H']. unfold numeric_result. now rewrite Hv'.
  Qed.
  Lemma punct_chars : forall c, In c (lit "!""#$%&'()*+,-./:;<=>?@[\]^_`{|}~") <-> is_ascii_punct c = true.
  Proof.
    intro c. split.
    - intro H. cbn in H. repeat (destruct H as [<-|H]; [reflexivity|]). destruct H.
    - intro H. apply existsb_In. destruct (N.ltb_spec c 127) as [L|L].
      + revert H. assert (X : forallb (fun n => implb (is_ascii_punct (N.of_nat n)) (existsb (N.eqb (N.of_nat n)) (lit "!""#$%&'()*+,-./:;<=>?@[\]^_`{|}~"))) (seq 0 127) = true) by (vm_compute; reflexivity).
        rewrite forallb_forall in X. specialize (X (N.to_nat c)). rewrite N2Nat.id in X. intro H. rewrite H in X. apply X. apply in_seq. lia.
      + unfold is_ascii_punct in H. rewrite !orb_true_iff, !andb_true_iff, !N.leb_le in H. lia.
  Qed.
  Lemma exact_escape : exact (pmap (fun c => [c]) p_escaped_char) escape_at.
  Proof.
    unfold p_escaped_char. eapply exact_iff; [ex|]. intros s v r. cbv beta. split.
    - intros (c & (x & m & [-> ->] & -> & H) & ->). constructor. now apply punct_chars.
    - intro H. inversion H as [c r' Hc]; subst. exists c. split; [|reflexivity]. exists (ch "\"), (c :: r). split; [auto|]. split; [reflexivity|]. now apply punct_chars.
  Qed.

  (** where some element stands *)
  Definition contents (p : piece) : list str :=
    match p with
    | PLink x _ _ | PEmph _ x | PStrike x => [x]
    | PReference x (Some y) => [x; y]
    | PReference x None => [x]
    | _ => []
    end.
  Definition sane (p : piece) : Prop := match p with PEmph n _ => 1 <= n <= 3 | PCustom _ => False | _ => True end.
  Lemma label_len : forall s t, label_text s t -> len t <= len s.
  Proof. intros s t H. induction H; cbn [List.length]; lia. Qed.
  Lemma bracket_len : forall s t r, bracket_at s t r -> t <> [] /\ len t < len s /\ len r < len s.
  Proof.
    intros s t r (raw & -> & H & F). split; [now apply label_nonempty|]. apply label_len in H. change (lit "[") with [91%N]. change (lit "]") with [93%N]. lenlia.
  Qed.
  Definition inner (p : piece) (s : str) : Prop := sane p /\ Forall (fun x => x <> [] /\ len x < len s) (contents p).
  Ltac trivial_inner := intros; match goal with H : _ |- _ => inversion H; subst end; (split; [exact I|constructor]).
  Lemma inner_link : forall s p r, r_link s p r -> inner p s.
  Proof. intros s p r H. inversion H as [? text m d t r0 B]; subst. apply bracket_len in B as (? & ? & _). split; [exact I|]. repeat constructor; assumption. Qed.
  Lemma inner_reference : forall s p r, r_reference s p r -> inner p s.
  Proof.
    intros s p r H. inversion H as [? text m l r0 B B'|? ? ? B|? ? ? B]; subst; apply bracket_len in B as (? & ? & ?); (split; [exact I|]); repeat constructor; try assumption;
      apply bracket_len in B' as (? & ? & ?); [assumption|lia].
  Qed.
  Lemma inner_emphasis : forall s p r, r_emphasis s p r -> inner p s.
  Proof.
    intros s p r H. inversion H as [m n ? text r0 Hm L (x & -> & _ & _ & N & _) _]; subst. split; [exact L|]. apply Forall_cons; [split; [exact N|]|constructor].
    destruct n; [lia|]. cbn [rep repeat]. lenlia.
  Qed.
  Lemma inner_strike : forall s p r, r_strike s p r -> inner p s.
  Proof. intros s p r H. inversion H; subst. split; [exact I|]. apply Forall_cons; [split; [assumption|]|constructor]. change (lit "~~") with [126%N; 126%N]. lenlia. Qed.
  Lemma inner_builds : forall p s, inner p s -> exists i, builds_by RI p i.
  Proof.
    intros p s [S F]. destruct p as [| | |text [l|]| | | | |n text|text| |]; cbn in S, F; try (now elim S);
      repeat match goal with H : Forall _ (_ :: _) |- _ => inversion H as [|? ? [? _] ?]; clear H; subst end;
      repeat match goal with H : ?x <> [] |- _ => destruct (Hall x H) as [? ?]; clear H end; try (eexists; econstructor; eassumption); try (eexists; constructor).
    assert (n = 1 \/ n = 2 \/ n = 3) as [->|[->| ->]] by lia; eexists; constructor; eassumption.
  Qed.
  Definition decides {A} (p : parser A) (P : str -> Prop) : Prop := safe p /\ forall s, (exists r a, p s = Ok r a) <-> P s.
  Lemma decides_exact : forall A (p : parser A) R, exact p R -> decides p (fun s => exists a r, R s a r).
  Proof. intros A p R [H1 H2]. split; [exact H1|]. intro s. split; [intros (r & a & E); exists a, r; now apply H2|intros (a & r & E); exists r, a; now apply H2]. Qed.
  Lemma decides_built : forall (p : parser inline) R, exact p (built R) -> (forall s q r, R s q r -> inner q s) -> decides p (applies R).
  Proof.
    intros p R H HI. destruct (decides_exact _ _ _ H) as [H1 H2]. split; [exact H1|]. intro s. rewrite H2. unfold built, applies. split.
    - intros (i & r & q & X & _). eauto.
    - intros (q & r & X). destruct (inner_builds q s) as [i B]; [eapply HI, X|]. exists i, r, q. auto.
  Qed.
  Lemma decides_unit : forall A (p : parser A) P, decides p P -> decides (p_unit p) P.
  Proof.
    intros A p P [H1 H2]. split.
    - intro s. unfold p_unit, value, pmap, bind, ret. destruct (p s) eqn:E; try discriminate. now elim (H1 s).
    - intro s. rewrite <- H2. unfold p_unit, value, pmap, bind, ret. destruct (p s) as [r a| |]; split; intros (r' & a' & E); eauto; discriminate.
  Qed.
  Lemma decides_cond : forall A B (b : behavior A) (p : parser unit) (R : rule B), decides p (applies R) -> decides (conditional_unit b p) (applies (on b R)).
  Proof.
    intros A B b p R [H1 H2]. unfold on, applies. destruct b; cbn [conditional_unit].
    all: first [solve [split; [discriminate|]; intro s; split; [intros (r & a & E); discriminate|now intros (q & r & N & _)]]|
      split; [exact H1|]; intro s; rewrite H2; unfold applies; split; intros (q & r & H); exists q, r; [split; [discriminate|exact H]|apply H]].
  Qed.
  Lemma decides_iff : forall A (p : parser A) P Q, decides p P -> (forall s, P s <-> Q s) -> decides p Q.
  Proof. intros A p P Q [H1 H2] E. split; [exact H1|]. intro s. now rewrite H2. Qed.
  Lemma decides_or : forall A (p q : parser A) P Q, decides p P -> decides q Q -> decides (or_else p q) (fun s => P s \/ Q s).
  Proof.
    intros A p q P Q [H1 H2] [H3 H4]. split.
    - intro s. unfold or_else. destruct (p s) eqn:E; [discriminate|apply H3|now elim (H1 s)].
    - intro s. rewrite <- H2, <- H4. unfold or_else. destruct (p s) as [r a| |] eqn:E.
      + split; [left; eauto|eauto].
      + split; [now right|]. intros [(r & a & X)|X]; [discriminate|exact X].
      + now elim (H1 s).
  Qed.
  Lemma exact_autolink' : exact (pmap IAutolink p_autolink) (built r_autolink).
  Proof.
    eapply exact_iff; [ex; apply exact_autolink|]. intros s i r. unfold built. split.
    - intros (u & H & ->). exists (PAutolink u). split; now constructor.
    - intros (p & H & B). inversion H; subst. inversion B; subst. eauto.
  Qed.
  Lemma exact_footnote' : exact p_footnote_reference (built r_footnote).
  Proof.
    eapply exact_iff; [apply exact_footnote|]. intros s i r. unfold built. split.
    - intros (u & -> & H). exists (PFootnote u). split; [exact H|now constructor].
    - intros (p & H & B). inversion H; subst. inversion B; subst. eauto.
  Qed.
  Lemma exact_break' : exact p_hard_newline (built r_break).
  Proof.
    eapply exact_iff; [apply exact_break|]. intros s i r. unfold built. split.
    - intros (-> & H). exists PBreak. split; [exact H|now constructor].
    - intros (p & H & B). inversion H; subst; inversion B; subst; auto.
  Qed.
  Lemma exact_image' : exact p_image (built r_image).
  Proof.
    eapply exact_iff; [apply exact_image|]. intros s i r. unfold built. split.
    - intros (d & t & a & -> & H). exists (PImage d t a). split; [exact H|now constructor].
    - intros (p & H & B). inversion H; subst; inversion B; subst. eauto.
  Qed.
  Lemma exact_code' : exact (pmap ICode p_code_span) (built r_code).
  Proof.
    eapply exact_iff; [ex; apply exact_code|]. intros s i r. unfold built. split.
    - intros (c & (n & raw & H1 & H2) & ->). exists (PCode c). split; [econstructor; eassumption|now constructor].
    - intros (p & H & B). inversion H; subst; inversion B; subst. eauto 6.
  Qed.
  Lemma exact_word' : exact p_environment_variable (built r_word).
  Proof.
    eapply exact_iff; [apply exact_word|]. intros s i r. unfold built. split.
    - intros (w & -> & H). exists (PWord w). split; [exact H|now constructor].
    - intros (p & H & B). inversion H; subst; inversion B; subst. eauto.
  Qed.

  Ltac flat := intros; match goal with H : _ |- _ => inversion H; subst end; (split; [exact I|constructor]).
  Lemma inner_autolink : forall s p r, r_autolink s p r -> inner p s. Proof. flat. Qed.
  Lemma inner_footnote : forall s p r, r_footnote s p r -> inner p s. Proof. flat. Qed.
  Lemma inner_break : forall s p r, r_break s p r -> inner p s. Proof. flat. Qed.
  Lemma inner_image : forall s p r, r_image s p r -> inner p s. Proof. flat. Qed.
  Lemma inner_code : forall s p r, r_code s p r -> inner p s. Proof. flat. Qed.
  Lemma inner_word : forall s p r, r_word s p r -> inner p s. Proof. flat. Qed.

  Hypothesis Htext : i_text cfg <> Ignore.
  Lemma decides_special : decides (p_not_a_text cfg rec) (special cfg).
  Proof.
    assert (E : decides (conditional_unit (i_text cfg) (p_unit (p_html_entity cfg))) (fun s => exists v r, entity_at (html_entities cfg) s v r)).
    { pose proof (decides_unit _ _ _ (decides_exact _ _ _ exact_entity)) as X. destruct (i_text cfg); try exact X. now elim Htext. }
    assert (L : decides (p_unit (p_inline_link rec)) (applies r_link)).
    { pose proof (decides_built _ _ exact_link inner_link) as [X1 X2]. split.
      - intro s. specialize (X1 s). unfold p_unit, value. unfold pmap, bind, ret in *. destruct (p_inline_link rec s); congruence.
      - intro s. rewrite <- X2. unfold p_unit, value, pmap, bind, ret. destruct (p_inline_link rec s); split; intros (r & x & Q); (discriminate || eauto). }
    assert (C : decides (p_unit p_code_span) (applies r_code)).
    { pose proof (decides_built _ _ exact_code' inner_code) as [X1 X2]. split.
      - intro s. specialize (X1 s). unfold p_unit, value. unfold pmap, bind, ret in *. destruct (p_code_span s); congruence.
      - intro s. rewrite <- X2. unfold p_unit, value, pmap, bind, ret. destruct (p_code_span s); split; intros (r & x & Q); (discriminate || eauto). }
    assert (U : decides (p_unit p_autolink) (applies r_autolink)).
    { pose proof (decides_built _ _ exact_autolink' inner_autolink) as [X1 X2]. split.
      - intro s. specialize (X1 s). unfold p_unit, value. unfold pmap, bind, ret in *. destruct (p_autolink s); congruence.
      - intro s. rewrite <- X2. unfold p_unit, value, pmap, bind, ret. destruct (p_autolink s); split; intros (r & x & Q); (discriminate || eauto). }
    unfold p_not_a_text. eapply decides_iff.
    - repeat (match goal with |- decides (alt (?p :: ?l)) _ => change (alt (p :: l)) with (or_else p (alt l)) end; eapply decides_or); [..|unfold alt];
        first [exact E | apply decides_cond; first [exact L | exact C | exact U | apply decides_unit, decides_built; [apply exact_reference|apply inner_reference]
          | apply decides_unit, decides_built; [apply exact_break'|apply inner_break]
          | apply decides_unit, decides_built; [apply exact_image'|apply inner_image]
          | apply decides_unit, decides_built; [apply exact_emphasis|apply inner_emphasis]
          | apply decides_unit, decides_built; [apply exact_footnote'|apply inner_footnote]
          | apply decides_unit, decides_built; [apply exact_strike|apply inner_strike]]
          | apply decides_unit, decides_built; [apply exact_word'|apply inner_word]].
    - intro s. cbv beta. unfold special, element_rules. rewrite !Exists_cons, Exists_nil. tauto.
  Qed.
  Lemma special_dec : forall s, special cfg s \/ ~ special cfg s.
  Proof.
    intro s. destruct decides_special as [H1 H2]. specialize (H2 s). destruct (p_not_a_text cfg rec s) as [r a| |] eqn:E; [| |now elim (H1 s)].
    - left. apply H2. eauto.
    - right. intro X. apply H2 in X as (r & a & X). discriminate.
  Qed.
  Lemma many_run_of : forall s v r, (exists l, many_of (fun s c r => s = c :: r /\ ~ special cfg s) s l r /\ s = v ++ r) <-> run_of cfg s v r.
  Proof.
    intros s v r. split.
    - intros (l & H & E). revert v E. induction H as [s N|s c m l r [-> X] L Y IH]; intros v E.
      + assert (v = []) as ->. { apply (f_equal (@List.length char)) in E. rewrite app_length in E. destruct v; [reflexivity|lenlia]. }
        apply run_end. destruct s as [|c s]; [now left|]. right. destruct (special_dec (c :: s)) as [X|X]; [exact X|]. elim N. eauto.
      + destruct v as [|x v].
        * exfalso. cbn in E. subst r. apply many_of_len in Y. lenlia.
        * injection E as <- E. apply run_char; [exact X|]. apply IH, E.
    - intro H. induction H as [s H|c s t r N H (l & IH & E)].
      + exists []. split; [|reflexivity]. apply many_stop. intros (c & r & -> & X). destruct H as [H|H]; [discriminate|now apply X].
      + exists (c :: l). split; [|now rewrite E]. refine (many_step _ _ c _ _ _ _ _ IH); [auto|lenlia].
  Qed.
  Lemma exact_run : exact (p_text_run cfg rec) (fun s v r => v <> [] /\ run_of cfg s v r).
  Proof.
    unfold p_text_run. assert (X : exact (preceded (peek (not_ (p_not_a_text cfg rec))) anychar) (fun s c r => s = c :: r /\ ~ special cfg s)).
    { destruct decides_special as [H1 H2]. eapply exact_iff; [eapply exact_until with (R := fun s a r => p_not_a_text cfg rec s = Ok r a); split; [exact H1|intros; reflexivity]|]. intros s c r. cbv beta.
      rewrite <- (H2 s). split; intros [-> N]; (split; [reflexivity|]); intros (a & b & Z); apply N; eauto. }
    eapply exact_iff; [eapply exact_recognize; [eapply exact_many1; [exact X|eats]|eats]|]. intros s v r. cbv beta. rewrite <- many_run_of. split.
    - intros (-> & l & N & H). split; [|eauto]. intros ->. apply N. apply (many_of_same _ _ _ _ H).
    - intros (N & l & H & ->). split; [reflexivity|]. exists l. split; [|exact H]. intros ->. apply many_of_nil in H.
      apply (f_equal (@List.length char)) in H. rewrite app_length in H. destruct v; [now elim N|lenlia].
  Qed.

  Lemma exact_chunk : exact (alt [pmap (fun c => [c]) p_escaped_char; p_html_entity cfg; p_text_run cfg rec]) (chunk cfg).
  Proof.
    eapply exact_iff; [ex1; eapply exact_or; [apply exact_escape|]; ex1; eapply exact_or; [apply exact_entity|]; unfold alt; apply exact_run|].
    intros s v r. cbv beta. unfold chunk.
    assert (A : (~ exists a r', escape_at s a r') <-> forall v' r', ~ escape_at s v' r') by (split; [intros N v' r' X; apply N; eauto|intros N (v' & r' & X); now apply N in X]).
    assert (B : (~ exists a r', entity_at (html_entities cfg) s a r') <-> forall v' r', ~ entity_at (html_entities cfg) s v' r')
      by (split; [intros N v' r' X; apply N; eauto|intros N (v' & r' & X); now apply N in X]).
    rewrite A, B. tauto.
  Qed.
  Lemma eats_chunk : eats true (alt [pmap (fun c => [c]) p_escaped_char; p_html_entity cfg; p_text_run cfg rec]).
  Proof. eats. Qed.
  Lemma many_chunks : forall s l r, many_of (chunk cfg) s l r <-> chunks cfg s l r.
  Proof.
    intros s l r. split; intro H.
    - induction H as [s N|s v m l r X L Y IH]; [apply chunks_end; intros v r X; apply N; eauto|econstructor; eassumption].
    - induction H as [s N|s v m l r X Y IH]; [apply many_stop; intros (v & r & X); now apply N in X|]. refine (many_step _ _ v _ _ _ X _ IH).
      apply (exact_ok _ _ exact_chunk) in X. apply (eats_lt _ _ _ _ _ eats_chunk X).
  Qed.
  Lemma exact_text : exact (p_text cfg rec) (built (r_text cfg)).
  Proof.
    unfold p_text. eapply exact_iff; [eapply exact_pmap, exact_many1; [apply exact_chunk|apply eats_chunk]|]. intros s i r. cbv beta. unfold built. split.
    - intros (l & (N & H) & ->). exists (PText (concat l)). split; [constructor; [exact N|now apply many_chunks]|constructor].
    - intros (p & H & B). inversion H as [? l ? N C]; subst. inversion B; subst. exists l. split; [|reflexivity]. split; [exact N|now apply many_chunks].
  Qed.
  Lemma inner_text : forall s p r, r_text cfg s p r -> inner p s. Proof. flat. Qed.

  (** one piece *)
  Definition gives (p : piece) (o : list inline) : Prop :=
    (exists i, builds_by RI p i /\ o = outcome IEmpty (behavior_of cfg p) i) \/ p = PCustom o.
  Definition emitted (R : rule piece) (s : str) (o : list inline) (r : str) : Prop := exists p, R s p r /\ gives p o.
  Definition good (p : parser (list inline)) (R : rule piece) : Prop :=
    exact p (emitted R) /\ forall s q r, R s q r -> exists o, gives q o.
  Lemma good_cond : forall b p R, exact p (built R) -> (forall s q r, R s q r -> inner q s) ->
    (forall s q r, R s q r -> behavior_of cfg q = b) -> good (conditional_inline b p) (on b R).
  Proof.
    intros b p R H HI HB. split.
    - assert (G : forall f : inline -> list inline, b <> Ignore -> (forall i, f i = outcome IEmpty b i) ->
        exact (pmap f p) (emitted (on b R))).
      { intros f Nb Hf. eapply exact_iff; [apply exact_pmap, H|]. intros s o r. unfold emitted, on, built, gives. split.
        - intros (i & (q & X & B) & ->). exists q. split; [auto|]. left. exists i. split; [exact B|]. now rewrite (HB _ _ _ X), Hf.
        - intros (q & (_ & X) & [(i & B & ->)| ->]).
          + exists i. rewrite (HB _ _ _ X), Hf. eauto.
          + apply HI in X. now destruct X. }
      unfold conditional_inline. destruct b; cbn [conditional].
      all: first [ apply (G (fun v => [v])); [discriminate|reflexivity]
                 | apply (G (fun _ => [IEmpty])); [discriminate|reflexivity]
                 | apply (G (fun v => [f v])); [discriminate|reflexivity]
                 | apply (G f); [discriminate|reflexivity]
                 | idtac ].
      eapply exact_iff; [apply exact_fail|]. intros s o r. unfold emitted, on. split; [tauto|]. intros (q & (N & _) & _). now elim N.
    - intros s q r [_ X]. destruct (inner_builds q s (HI _ _ _ X)) as [i B]. eexists. left. eauto.
  Qed.
  Lemma good_word : good (pmap (fun v => [v]) p_environment_variable) r_word.
  Proof.
    pose proof (good_cond Parse p_environment_variable r_word exact_word' inner_word) as G. destruct G as [G1 G2].
    { intros s q r H. now inversion H. }
    split.
    - eapply exact_iff; [exact G1|]. intros s o r. unfold emitted, on. split; intros (q & X & Y); exists q; (split; [|exact Y]); [apply X|split; [discriminate|exact X]].
    - intros s q r X. apply (G2 s q r). split; [discriminate|exact X].
  Qed.
  Hypothesis Hcustom : custom_ok cfg.
  Lemma good_custom : good (p_custom_inline cfg) (r_custom cfg).
  Proof.
    unfold p_custom_inline. split.
    - destruct (custom_inline cfg) as [p|] eqn:E.
      + split; [intro s; apply (proj2 (proj1 Hcustom p E))|]. intros s r o. unfold emitted, gives. split.
        * intro H. exists (PCustom o). split; [econstructor; eassumption|now right].
        * intros (q & H & G). inversion H as [p' s' l' r' E' H']; subst. destruct G as [(i & B & _)|G]; [inversion B|]. injection G as <-. congruence.
      + eapply exact_iff; [apply exact_fail|]. intros s o r. split; [tauto|]. intros (q & H & _). inversion H; congruence.
    - intros s q r H. inversion H; subst. eexists. now right.
  Qed.
  Lemma good_alt : forall ps Rs, Forall2 good ps Rs -> exact (alt ps) (emitted (first_of Rs)).
  Proof.
    intros ps Rs H. induction H as [|p R ps Rs [H1 H2] H IH].
    - eapply exact_iff; [apply exact_fail|]. intros s o r. unfold emitted. cbn. split; [tauto|]. now intros (q & [] & _).
    - assert (X : exact (or_else p (alt ps)) (emitted (first_of (R :: Rs)))).
      { eapply exact_iff; [apply exact_or; [exact H1|exact IH]|]. intros s o r. unfold emitted. cbn [first_of]. split.
        - intros [(q & A & B)|(N & q & A & B)]; exists q; (split; [|exact B]); [now left|right; split; [|exact A]].
          intros (q' & r' & Q). apply N. destruct (H2 _ _ _ Q) as [o' G]. exists o', r', q'. auto.
        - intros (q & [A|[N A]] & B); [left; eauto|right]. split; [|eauto]. intros (o' & r' & q' & Q & _). apply N. now exists q', r'. }
      destruct ps as [|p' ps]; [|exact X]. cbn [alt]. eapply exact_iff; [exact H1|]. intros s o r. inversion H; subst. unfold emitted. cbn [first_of]. split; intros (q & A & B); exists q; [auto|].
      split; [|exact B]. destruct A as [A|[_ []]]. exact A.
  Qed.
  Theorem exact_inline : exact (p_inline cfg rec) (emitted (first_of (inline_rules cfg))).
  Proof.
    unfold p_inline. apply good_alt. unfold inline_rules, element_rules. cbn [app].
    repeat apply Forall2_cons; try apply Forall2_nil; try exact good_word; try exact good_custom; apply good_cond;
      first [ apply exact_autolink' | apply exact_link | apply exact_footnote' | apply exact_reference | apply exact_break' | apply exact_image' | apply exact_code'
            | apply exact_emphasis | apply exact_strike | apply exact_text
            | apply inner_autolink | apply inner_link | apply inner_footnote | apply inner_reference | apply inner_break | apply inner_image | apply inner_code
            | apply inner_emphasis | apply inner_strike | apply inner_text
            | let H := fresh in intros ? ? ? H; now inversion H ].
  Qed.
End Rec.

(** ** The whole text *)
Scheme builds_ind' := Induction for builds Sort Prop
  with yields_ind' := Induction for yields Sort Prop
  with pieces_ind' := Induction for pieces Sort Prop
  with reads_ind' := Induction for reads Sort Prop.
Combined Scheme reads_mut from builds_ind', yields_ind', pieces_ind', reads_ind'.

Section Main.
  Variable cfg : config.
  Hypothesis Hcustom : custom_ok cfg.
  Hypothesis Htext : i_text cfg <> Ignore.
  Let rec := inline_many1 cfg.
  Let RI (x : str) (l : list inline) := rec x = Ok [] l.
  Lemma rec_safe : safe rec.
  Proof. apply rel_safe. intro n. apply rel_inline_many1, Hcustom. Qed.
  Lemma rec_all : forall x, x <> [] -> exists l, rec x = Ok [] l.
  Proof. apply inline_many1_all; assumption. Qed.
  Local Notation step := (emitted cfg rec (first_of (inline_rules cfg))).
  Lemma exact_step : exact (p_inline cfg rec) step.
  Proof. apply exact_inline; [apply rec_safe|apply rec_all|assumption|assumption]. Qed.
  Lemma eats_step : eats true (p_inline cfg rec). Proof. apply eats_inline, Hcustom. Qed.
  Lemma first_contents : forall s p r, first_of (inline_rules cfg) s p r -> Forall (fun x => x <> [] /\ len x < len s) (contents p).
  Proof.
    intros s p r H. unfold inline_rules, element_rules in H. cbn [app first_of] in H.
    repeat (match type of H with _ \/ (_ /\ _) => destruct H as [H|[_ H]] end); try (unfold on in H; apply proj2 in H).
    all: first [ apply (inner_autolink _ _ _ H) | apply (inner_link _ _ _ H) | apply (inner_footnote _ _ _ H) | apply (inner_reference _ _ _ H) | apply (inner_break _ _ _ H)
      | apply (inner_image _ _ _ H) | apply (inner_code _ _ _ H) | apply (inner_word _ _ _ H) | apply (inner_emphasis cfg _ _ _ H) | apply (inner_strike _ _ _ H)
      | apply (inner_text cfg _ _ _ H) | (inversion H; subst; constructor) | destruct H ].
  Qed.
  Lemma many0_reads : forall s l, inline_many0 cfg s = Ok [] l <-> exists ll, many_of step s ll [] /\ l = merge_consecutive_text_elements (concat ll).
  Proof.
    intros s l. rewrite inline_many0_unfold by exact Hcustom. fold rec.
    pose proof (exact_pmap (fun ll => merge_consecutive_text_elements (concat ll)) _ _ (exact_many0 _ _ exact_step (eats_weaken _ _ _ eats_step))) as X.
    rewrite (proj2 X s [] l). reflexivity.
  Qed.
  Lemma many01_reads : forall s l, s <> [] -> inline_many0 cfg s = Ok [] l -> RI s l.
  Proof.
    intros s l N E. destruct (rec_all s N) as [l' E']. pose proof (inline_many01 cfg Hcustom s l' E') as E2. rewrite E in E2. injection E2 as ->. exact E'.
  Qed.
  Lemma reads_sound :
    (forall p i, builds cfg p i -> Forall (fun x => x <> []) (contents p) -> builds_by RI p i) /\
    (forall p o, yields cfg p o -> Forall (fun x => x <> []) (contents p) -> gives cfg rec p o) /\
    (forall s l, pieces cfg s l -> exists ll, many_of step s ll [] /\ l = concat ll) /\
    (forall s l, reads cfg s l -> inline_many0 cfg s = Ok [] l).
  Proof.
    apply (reads_mut cfg (fun p i _ => Forall (fun x => x <> []) (contents p) -> builds_by RI p i)
      (fun p o _ => Forall (fun x => x <> []) (contents p) -> gives cfg rec p o)
      (fun s l _ => exists ll, many_of step s ll [] /\ l = concat ll)
      (fun s l _ => inline_many0 cfg s = Ok [] l)).
    all: try (intros; constructor; fail).
    all: try (intros; match goal with H : Forall _ (contents _) |- _ => cbn in H; repeat match goal with H : Forall _ (_ :: _) |- _ => inversion H; clear H; subst end end;
      constructor; apply many01_reads; assumption).
    - intros p i B IH F. left. exists i. split; [now apply IH|reflexivity].
    - intros l F. now right.
    - exists []. split; [|reflexivity]. apply many_stop. intros (a & r & X). apply (exact_ok _ _ exact_step) in X. apply (eats_lt _ _ _ _ _ eats_step) in X. cbn in X. lia.
    - intros s p r o l H Y IHY P (ll & IH & ->). exists (o :: ll). split; [|reflexivity].
      assert (X : step s o r). { exists p. split; [exact H|]. apply IHY. apply first_contents in H. revert H. apply Forall_impl. now intros x [N _]. }
      refine (many_step _ _ o _ _ _ X _ IH). apply (exact_ok _ _ exact_step) in X. apply (eats_lt _ _ _ _ _ eats_step X).
    - intros s l l' P (ll & H & ->) J M. apply many0_reads. exists ll. split; [exact H|]. now apply merge_unique.
  Qed.
  Lemma reads_complete : forall n s l, len s <= n -> inline_many0 cfg s = Ok [] l -> reads cfg s l.
  Proof.
    induction n as [n IH] using lt_wf_ind. intros s l L E. apply many0_reads in E as (ll & H & ->).
    assert (B : forall p i, Forall (fun x => x <> [] /\ len x < n) (contents p) -> builds_by RI p i -> builds cfg p i).
    { intros p i F Y. assert (Q : forall x c, x <> [] -> len x < n -> RI x c -> reads cfg x c).
      { intros x c Nx Lx R. apply (IH (len x) Lx x c (le_n _)). apply inline_many01; [exact Hcustom|exact R]. }
      inversion Y; subst; cbn in F; repeat match goal with H : Forall _ (_ :: _) |- _ => inversion H as [|? ? [? ?] ?]; clear H; subst end; constructor; apply Q; assumption. }
    apply Reads with (concat ll); [|exact (joins_merge _ None)|apply merge_merged_go]. clear - H L B Hcustom Htext.
    assert (K : forall s ll e, many_of step s ll e -> e = [] -> len s <= n -> pieces cfg s (concat ll)).
    { clear s ll H L. intros s ll e H. induction H as [s N|s o m ll r (p & X & G) Lm Y IHY]; intros Ee L.
      - subst. apply P_end.
      - cbn [concat]. eapply P_more; [exact X| |apply IHY; [exact Ee|unfold char, str in *; lia]].
        destruct G as [(i & Bi & ->)| ->]; [|apply Yields_custom]. apply Yields, B; [|exact Bi].
        apply first_contents in X. revert X. apply Forall_impl. intros x [Nx Lx]. split; [exact Nx|]. unfold char, str in *. lia. }
    exact (K s ll [] H eq_refl L).
  Qed.
  Theorem inline_many0_reads : forall s l, inline_many0 cfg s = Ok [] l <-> reads cfg s l.
  Proof. intros s l. split; [now apply (reads_complete (len s))|apply reads_sound]. Qed.
End Main.
