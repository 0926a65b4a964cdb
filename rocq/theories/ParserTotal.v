(** The parser succeeds on every input, and what it discards is blank. *)
From Coq Require Import String.
From Verif Require Export ParserBlockFacts SpecParser.
Import ListNotations.
Open Scope list_scope.
Local Notation len := (@List.length _).

Definition safe {A} (p : parser A) : Prop := forall s, p s <> Oof.
Lemma rel_safe : forall A (p : parser A), (forall n, rel n p p) -> safe p.
Proof. intros A p H s. apply (H (len s) s). lia. Qed.

Lemma alt_err : forall A (l : list (parser A)) s, Forall (fun p => p s = Err) l -> alt l s = Err.
Proof.
  intros A. induction l as [|p l IH]; intros s H; [reflexivity|]. inversion H as [|? ? Hp Hl]; subst.
  destruct l as [|q l]; [exact Hp|]. cbn [alt]. unfold or_else. rewrite Hp. now apply IH.
Qed.
Lemma alt_err_inv : forall A (l : list (parser A)) s, alt l s = Err -> Forall (fun p => p s = Err) l.
Proof.
  intros A. induction l as [|p l IH]; intros s H; [constructor|].
  destruct l as [|q l]; [now constructor|]. cbn [alt] in H. unfold or_else in H.
  destruct (p s) eqn:E; try discriminate. constructor; [exact E|]. now apply IH.
Qed.
Lemma alt_ok_last : forall A (l : list (parser A)) s, Forall safe l ->
  Exists (fun p => exists r a, p s = Ok r a) l -> exists r a, alt l s = Ok r a.
Proof.
  intros A. induction l as [|p l IH]; intros s Hs H; [inversion H|].
  inversion Hs as [|? ? Hp Hl]; subst.
  destruct l as [|q l]; [inversion H as [? ? H1|? ? H1]; [exact H1|inversion H1]|].
  cbn [alt]. unfold or_else. destruct (p s) as [r a| |] eqn:E; [now exists r, a| |now elim (Hp s)].
  apply IH; [exact Hl|]. inversion H as [? ? H1|? ? H1]; [|exact H1].
  destruct H1 as (r & a & H1). rewrite E in H1. discriminate.
Qed.

Lemma many0_ok : forall A (p : parser A), eats true p -> safe p ->
  forall s, exists r l, many0 p s = Ok r l /\ p r = Err.
Proof.
  intros A p He Hs s. unfold many0. assert (Hf : len s < S (len s)) by lia. revert Hf.
  generalize (S (len s)) as f. intros f. revert s.
  induction f as [|f IH]; intros s Hf; [lia|]. cbn [many0_go].
  destruct (p s) as [r a| |] eqn:E; [|now exists s, []|now elim (Hs s)].
  apply eats_lt in E; [|exact He]. destruct (Nat.eqb_spec (len r) (len s)); [lia|].
  destruct (IH r) as (r' & l & E' & Er); [lia|]. rewrite E'. now exists r', (a :: l).
Qed.
Lemma many1_ok : forall A (p : parser A), eats true p -> safe p -> forall s r a, p s = Ok r a ->
  exists r l, many1 p s = Ok r l /\ p r = Err /\ l <> [].
Proof.
  intros A p He Hs s r a E. unfold many1, bind. rewrite E. unfold pmap, bind, ret.
  destruct (many0_ok A p He Hs r) as (r' & l & E' & Er). rewrite E'. exists r', (a :: l). now split.
Qed.
Lemma many0_stop : forall A (p : parser A) s r l, many0 p s = Ok r l -> p r = Err.
Proof.
  intros A p s. unfold many0. generalize (S (len s)) as f. intros f. revert s.
  induction f as [|f IH]; intros s r l E; [discriminate|]. cbn [many0_go] in E.
  destruct (p s) as [r1 a| |] eqn:E1; try discriminate; [|injection E as <- <-; exact E1].
  destruct (_ =? _); [discriminate|]. destruct (many0_go f p r1) eqn:E2; try discriminate.
  injection E as <- <-. now apply IH in E2.
Qed.
Lemma many1_stop : forall A (p : parser A) s r l, many1 p s = Ok r l -> p r = Err.
Proof.
  intros A p s r l E. unfold many1, pmap, bind, ret in E. destruct (p s) as [r1 a| |]; try discriminate.
  destruct (many0 p r1) eqn:E1; try discriminate. injection E as <- <-. now apply many0_stop in E1.
Qed.

(** ** Inlines *)
Lemma cond_err : forall A (b : behavior A) d p s, conditional b d p s = Err ->
  conditional_unit b (p_unit p) s = Err.
Proof.
  intros A b d p s. destruct b; cbn [conditional conditional_unit]; unfold value, p_unit, value, pmap, bind, ret;
    destruct (p s); intros; try discriminate; reflexivity.
Qed.
Lemma cond_ok : forall A (b : behavior A) d p s, b <> Ignore -> (exists r a, p s = Ok r a) ->
  exists r a, conditional b d p s = Ok r a.
Proof.
  intros A b d p s Hb (r & a & E). destruct b; cbn [conditional]; try (now elim Hb);
    unfold value, pmap, bind, ret; rewrite E; eauto.
Qed.
Lemma pmap_err : forall A B (f : A -> B) p s, pmap f p s = Err <-> p s = Err.
Proof. intros. unfold pmap, bind, ret. destruct (p s); split; intros; try discriminate; reflexivity. Qed.
Lemma cond_unit_err : forall A (b : behavior A) B (p : parser B) s, (b <> Ignore -> p s = Err) ->
  conditional_unit b (p_unit p) s = Err.
Proof.
  intros A b B p s H. destruct b; cbn [conditional_unit]; try reflexivity;
  unfold p_unit, value, pmap, bind; rewrite H; try reflexivity; discriminate.
Qed.

Section InlineTotal.
  Variable cfg : config.
  Hypothesis Hc : custom_ok cfg.
  Hypothesis Ht : i_text cfg <> Ignore.

  Lemma rel_inline' : forall n, rel n (p_inline cfg (inline_many1 cfg)) (p_inline cfg (inline_many1 cfg)).
  Proof. intro n. apply rel_inline; [exact Hc|]. intros m Hm. now apply rel_inline_many1. Qed.
  Lemma rel_text' : forall n, rel n (p_text cfg (inline_many1 cfg)) (p_text cfg (inline_many1 cfg)).
  Proof. intro n. apply rel_text. intros m Hm. now apply rel_inline_many1. Qed.
  Lemma rel_text_run' : forall n, rel n (p_text_run cfg (inline_many1 cfg)) (p_text_run cfg (inline_many1 cfg)).
  Proof. intro n. apply rel_text_run. intros m Hm. now apply rel_inline_many1. Qed.

  Lemma inline_progress : forall c s, exists r l, p_inline cfg (inline_many1 cfg) (c :: s) = Ok r l.
  Proof.
    intros c s. destruct (p_inline cfg (inline_many1 cfg) (c :: s)) as [r l| |] eqn:E; [now exists r, l| |].
    2: { exfalso. exact (rel_safe _ _ rel_inline' _ E). }
    exfalso. unfold p_inline in E. apply alt_err_inv in E.
    repeat match goal with H : Forall _ (_ :: _) |- _ => inversion H; clear H; subst end.
    match goal with H : conditional_inline (i_text cfg) _ _ = Err |- _ => rename H into HT end.
    destruct (cond_ok _ (i_text cfg) [IEmpty] (p_text cfg (inline_many1 cfg)) (c :: s) Ht) as (r & a & X).
    2: { unfold conditional_inline in HT. rewrite X in HT. discriminate. }
    destruct (p_html_entity cfg (c :: s)) as [re ae| |] eqn:EE.
    3: { exfalso. exact (rel_safe _ _ (fun n => rel_entity n cfg) _ EE). }
    - destruct (many1_ok _ (alt [pmap (fun c => [c]) p_escaped_char; p_html_entity cfg; p_text_run cfg (inline_many1 cfg)]))
        with (s := c :: s) (r := re) (a := ae) as (r' & l' & X & _); [eats| | |].
      + apply rel_safe. intro n. pose proof (rel_text_run' n). rel.
      + destruct (pmap (fun c => [c]) p_escaped_char (c :: s)) as [r1 a1| |] eqn:E1.
        * exfalso. clear - E1 EE. unfold pmap, bind, ret in E1.
          destruct (p_escaped_char (c :: s)) as [r2 a2| |] eqn:E2; try discriminate.
          unfold p_escaped_char, preceded, bind, chr, char_, satisfy in E2.
          destruct (N.eqb_spec (ch "\") c); [|discriminate]. subst c.
          unfold p_html_entity, p_entity_alpha, p_entity_numeric in EE. cbn [alt] in EE. discriminate.
        * cbn [alt]. unfold or_else. now rewrite E1, EE.
        * exfalso. revert E1. apply rel_safe. intro n. rel.
      + unfold p_text; unfold pmap at 1, bind at 1. rewrite X. unfold ret. eauto.
    - destruct (alt [pmap (fun c => [c]) p_escaped_char; p_html_entity cfg; p_text_run cfg (inline_many1 cfg)] (c :: s))
        as [r1 a1| |] eqn:E1.
      3: { exfalso. revert E1. apply rel_safe. intro n. pose proof (rel_text_run' n). rel. }
      + destruct (many1_ok _ (alt [pmap (fun c => [c]) p_escaped_char; p_html_entity cfg; p_text_run cfg (inline_many1 cfg)]))
          with (s := c :: s) (r := r1) (a := a1) as (r' & l' & X & _); [eats| |exact E1|].
        * apply rel_safe. intro n. pose proof (rel_text_run' n). rel.
        * unfold p_text; unfold pmap at 1, bind at 1. rewrite X. unfold ret. eauto.
      + exfalso. apply alt_err_inv in E1.
        repeat match goal with H : Forall _ (_ :: _) |- _ => inversion H; clear H; subst end.
        match goal with H : p_text_run _ _ _ = Err |- _ => rename H into HR end.
        assert (NT : p_not_a_text cfg (inline_many1 cfg) (c :: s) = Err).
        { unfold p_not_a_text. apply alt_err.
          repeat match goal with H : conditional_inline _ _ _ = Err |- _ => apply cond_err in H end.
          repeat apply Forall_cons1; try assumption; try constructor.
          - match goal with H : conditional_unit (i_autolink cfg) _ _ = Err |- _ => rename H into HH end.
            apply cond_unit_err. intros Hb. destruct (i_autolink cfg); try (now elim Hb);
            cbn [conditional_unit] in HH; unfold p_unit, value in HH; rewrite !pmap_err in HH; exact HH.
          - apply cond_unit_err. intros _. exact EE.
          - match goal with H : conditional_unit (i_link cfg) _ _ = Err |- _ => rename H into HH end.
            apply cond_unit_err. intros Hb. destruct (i_link cfg); try (now elim Hb);
            cbn [conditional_unit] in HH; unfold p_unit, value in HH; rewrite !pmap_err in HH; exact HH.
          - match goal with H : conditional_unit (i_code_span cfg) _ _ = Err |- _ => rename H into HH end.
            apply cond_unit_err. intros Hb. destruct (i_code_span cfg); try (now elim Hb);
            cbn [conditional_unit] in HH; unfold p_unit, value in HH; rewrite !pmap_err in HH; exact HH.
          - unfold p_unit, value. apply pmap_err. match goal with H : pmap _ p_environment_variable _ = Err |- _ => now apply pmap_err in H end. }
        set (q := preceded (peek (not_ (p_not_a_text cfg (inline_many1 cfg)))) anychar).
        assert (SQ : safe q).
        { apply rel_safe. intro n. assert (X := rel_not_a_text cfg n (inline_many1 cfg) (inline_many1 cfg)
            (fun m _ => rel_inline_many1 cfg Hc m)). unfold q, anychar. rel. }
        destruct (many1_ok _ q) with (s := c :: s) (r := s) (a := c) as (r' & l' & X & _); [unfold q; eats|exact SQ| |].
        * unfold q, preceded, bind, peek, not_. rewrite NT. reflexivity.
        * unfold p_text_run, recognize in HR. fold q in HR. rewrite X in HR. discriminate.
  Qed.
  Lemma inline_err : forall s, p_inline cfg (inline_many1 cfg) s = Err -> s = [].
  Proof. intros [|c s] E; [reflexivity|]. destruct (inline_progress c s) as (r & l & X). congruence. Qed.

  Theorem inline_many0_all : forall s, exists l, inline_many0 cfg s = Ok [] l.
  Proof.
    intros s. rewrite inline_many0_unfold by exact Hc. unfold pmap, bind, ret.
    destruct (many0_ok _ (p_inline cfg (inline_many1 cfg))) with (s := s) as (r & l & E & Er);
      [eats|apply rel_safe, rel_inline'|]. rewrite E. apply inline_err in Er as ->. eauto.
  Qed.
  Theorem inline_many1_all : forall s, s <> [] -> exists l, inline_many1 cfg s = Ok [] l.
  Proof.
    intros s Hs. rewrite inline_many1_unfold by exact Hc. unfold pmap at 1, bind at 1, ret.
    destruct s as [|c s]; [now elim Hs|]. destruct (inline_progress c s) as (r & l & E).
    destruct (many1_ok _ (p_inline cfg (inline_many1 cfg))) with (s := c :: s) (r := r) (a := l) as (r' & l' & E' & Er & _);
      [eats|apply rel_safe, rel_inline'|exact E|]. rewrite E'. apply inline_err in Er as ->. eauto.
  Qed.
End InlineTotal.

(** ** Blocks *)
Definition nonblank_line (s : str) : Prop :=
  exists a c t, s = a ++ c :: t /\ Forall (fun x => is_space x = true) a /\ is_space c = false
                /\ eof_or_eol (c :: t) = Err.
Lemma is_space_spec : forall c, is_space c = true <-> c = 32%N \/ c = 9%N.
Proof. intro c. unfold is_space. rewrite Bool.orb_true_iff, !N.eqb_eq. reflexivity. Qed.
Lemma blank_app : forall a b, Forall (fun x => is_space x = true) a -> blank b -> blank (a ++ b).
Proof. induction 1 as [|x a H _ IH]; intros Hb; [exact Hb|]. cbn. constructor; [now apply is_space_spec|now apply IH]. Qed.
Lemma span_all : forall f s a b, span f s = (a, b) -> Forall (fun x => f x = true) a /\
  match b with [] => True | c :: _ => f c = false end.
Proof.
  intros f. induction s as [|c s IH]; intros a b E; cbn in E; [injection E as <- <-; now split|].
  destruct (f c) eqn:Ec; [|injection E as <- <-; now split].
  destruct (span f s) as [a' b'] eqn:E'. injection E as <- <-. destruct (IH _ _ eq_refl). split; [now constructor|assumption].
Qed.
Lemma eol_spec : forall s r a, eof_or_eol s = Ok r a ->
  s = [] /\ r = [] \/ s = 10%N :: r \/ s = 13%N :: 10%N :: r.
Proof.
  intros s r a E. unfold eof_or_eol, line_ending, alt, or_else, tag, tag_by, eof in E.
  destruct s as [|x [|y s]]; cbn [tag_go] in E; [injection E as <- _; now left| |].
  - destruct (N.eqb_spec c_nl x) as [<-|]; [injection E as <- _; now right; left|].
    destruct (N.eqb_spec c_cr x); discriminate.
  - destruct (N.eqb_spec c_nl x) as [<-|]; [injection E as <- _; now right; left|].
    destruct (N.eqb_spec c_cr x) as [<-|]; [|discriminate].
    destruct (N.eqb_spec c_nl y) as [<-|]; [|discriminate]. injection E as <- _. now right; right.
Qed.
Lemma many_empty_cases : forall s, (many_empty_lines0 s = Err /\ blank s) \/
  (exists r l, many_empty_lines0 s = Ok r l /\ nonblank_line r).
Proof.
  intros s. unfold many_empty_lines0, many0. assert (Hf : len s < S (len s)) by lia. revert Hf.
  generalize (S (len s)) as f. intros f. revert s.
  induction f as [|f IH]; intros s Hf; [lia|]. cbn [many0_go].
  destruct (preceded space0 eof_or_eol s) as [r a| |] eqn:E.
  - assert (E' := E). unfold preceded, bind, space0, take_while in E'.
    destruct (span is_space s) as [u v] eqn:Es. pose proof (span_spec _ _ _ _ Es) as ->. apply span_all in Es as [Hu Hv].
    apply eol_spec in E'.
    destruct (Nat.eqb_spec (len r) (len (u ++ v))) as [El|El].
    + left. split; [reflexivity|]. apply blank_app; [exact Hu|]. rewrite app_length in El.
      destruct E' as [[-> ->]|[->| ->]]; [constructor| |]; cbn in El; lia.
    + assert (Hr : len r < f).
      { apply (eats_len _ false) in E; [lia|eats]. }
      destruct (IH r Hr) as [[Er Hb]|(r' & l & Er & Hn)]; rewrite Er.
      * left. split; [reflexivity|]. apply blank_app; [exact Hu|].
        destruct E' as [[-> _]|[->| ->]]; [constructor|now apply blank_lf|now apply blank_crlf].
      * right. now exists r', (a :: l).
  - right. exists s, []. split; [reflexivity|]. unfold preceded, bind, space0, take_while in E.
    destruct (span is_space s) as [u v] eqn:Es. pose proof (span_spec _ _ _ _ Es) as ->. apply span_all in Es as [Hu Hv].
    destruct v as [|c t]; [discriminate E|]. now exists u, c, t.
  - exfalso. revert E. apply rel_safe. intro n. rel.
Qed.

Lemma many_m_n_ok : forall A (p : parser A), eats true p -> safe p -> forall n s, exists r l,
  many_m_n 0 n p s = Ok r l.
Proof.
  intros A p He Hs. induction n as [|n IH]; intros s; cbn [many_m_n]; [eauto|].
  destruct (p s) as [r a| |] eqn:E; [|eauto|now elim (Hs s)].
  apply eats_lt in E; [|exact He]. destruct (Nat.eqb_spec (len r) (len s)); [lia|].
  destruct (IH r) as (r' & l & X). cbn [pred]. rewrite X. eauto.
Qed.
(** removing leading spaces keeps a line non-blank *)
Lemma nonblank_up3 : forall n s r l, many_m_n 0 n (chr " ") s = Ok r l -> nonblank_line s -> nonblank_line r.
Proof.
  induction n as [|n IH]; intros s r l E H; cbn [many_m_n] in E; [injection E as <- _; exact H|].
  destruct (chr " " s) as [r1 x| |] eqn:E1; [|injection E as <- _; exact H|discriminate].
  destruct (_ =? _); [discriminate|]. cbn [pred] in E.
  destruct (many_m_n 0 n (chr " ") r1) as [r2 l2| |] eqn:E2; try discriminate. injection E as <- _.
  apply IH in E2; [exact E2|]. destruct H as (a & c & t & -> & Ha & Hc & He).
  unfold chr, char_, satisfy in E1. destruct a as [|y a]; cbn [app] in E1.
  - destruct (N.eqb_spec (ch " ") c) as [<-|]; [|discriminate]. discriminate Hc.
  - destruct (N.eqb (ch " ") y); [|discriminate]. injection E1 as <- _. inversion Ha; subst. now exists a, c, t.
Qed.
Lemma nonblank_cons : forall s, nonblank_line s -> exists c t, s = c :: t /\ eof_or_eol s = Err.
Proof.
  intros s (a & c & t & -> & Ha & Hc & He). destruct a as [|y a]; [now exists c, t|].
  exists y, (a ++ c :: t). split; [reflexivity|]. inversion Ha as [|? ? Hy]; subst. apply is_space_spec in Hy.
  cbn [app]. unfold eof_or_eol, line_ending, alt, or_else, tag, tag_by, eof. cbn [tag_go].
  destruct (N.eqb_spec c_nl y) as [<-|]; [destruct Hy; discriminate|].
  destruct (N.eqb_spec c_cr y) as [<-|]; [destruct Hy; discriminate|]. reflexivity.
Qed.
Lemma not_eol1_ok : forall s, nonblank_line s -> exists r v, not_eof_or_eol1 s = Ok r v /\ v <> [] /\
  exists r' x, eof_or_eol r = Ok r' x.
Proof.
  intros s H. apply nonblank_cons in H as (c & t & -> & E). unfold not_eof_or_eol1, recognize.
  set (q := preceded (not_ eof_or_eol) anychar).
  assert (Q1 : q (c :: t) = Ok t c). { unfold q, preceded, bind, not_. rewrite E. reflexivity. }
  assert (Hq : eats true q) by (unfold q; eats).
  destruct (many1_ok _ q) with (s := c :: t) (r := t) (a := c) as (r & l & X & Er & _); [exact Hq| |exact Q1|].
  { apply rel_safe. intro n. unfold q. rel. }
  rewrite X. exists r. eexists. split; [reflexivity|]. split.
  - apply eats_lt in X; [|eats]. cbn [List.length] in *. destruct (S (len t) - len r) eqn:D; [lia|discriminate].
  - unfold q, preceded, bind, not_ in Er. destruct (eof_or_eol r) as [r' x| |] eqn:Y; [eauto| |].
    + destruct r; [discriminate Y|discriminate Er].
    + exfalso. revert Y. apply rel_safe. intro n. rel.
Qed.

Section BlockTotal.
  Variable cfg : config.
  Hypothesis Hc : custom_ok cfg.
  Hypothesis Ht : i_text cfg <> Ignore.
  Hypothesis Hp : b_paragraph cfg <> Ignore.

  Lemma line_start_eol : forall s r x, eof_or_eol s = Ok r x ->
    p_is_paragraph_line_start cfg (block_ cfg) s = Err.
  Proof.
    intros s r x E. unfold p_is_paragraph_line_start, peek, not_.
    match goal with |- context [alt ?l s] => destruct (alt_ok_last _ l s) as (r1 & a1 & X) end.
    - pose proof (fun n => rel_line_start cfg Hc n (block_ cfg) (block_ cfg) (eats_block_ cfg Hc)
        (fun m _ => rel_block_ cfg Hc m)) as R.
      repeat apply Forall_cons1; try constructor; apply rel_safe; intro n;
        pose proof (rel_blockquote n _ _ (eats_block_ cfg Hc) (fun m _ => rel_block_ cfg Hc m));
        pose proof (rel_list_item n _ _ (eats_block_ cfg Hc) (fun m _ => rel_block_ cfg Hc m));
        pose proof (rel_footnote_definition n _ _ (eats_block_ cfg Hc) (fun m _ => rel_block_ cfg Hc m));
        pose proof (rel_custom_block cfg Hc n);
        rel.
    - do 11 apply Exists_cons_tl. apply Exists_cons_hd.
      assert (Sp : space0 s = Ok s []).
      { apply eol_spec in E as [[-> ->]|[->| ->]]; reflexivity. }
      exists r, tt. unfold p_unit, value, pmap, line_terminated, terminated, value, pmap, bind, ret.
      now rewrite Sp, E.
    - rewrite X. reflexivity.
  Qed.
  Lemma paragraph_ok : forall s, nonblank_line s -> exists r a, p_paragraph cfg (block_ cfg) false s = Ok r a.
  Proof.
    intros s H. unfold p_paragraph.
    destruct (many_m_n_ok _ (chr " ")) with (n := 3) (s := s) as (s1 & l1 & E1); [eats|apply rel_safe; intro; rel|].
    pose proof (nonblank_up3 _ _ _ _ E1 H) as H1.
    destruct (not_eol1_ok s1 H1) as (r & v & E2 & Hv & r' & x & E3).
    unfold bind at 1. unfold pmap at 1, bind at 1. unfold preceded at 1, bind at 1. unfold up_to_3_spaces. rewrite E1, E2.
    unfold ret at 1. unfold bind at 1. unfold line_terminated, terminated, bind at 1. unfold separated_list0.
    unfold preceded at 1, bind at 1. rewrite (line_start_eol _ _ _ E3).
    unfold value, pmap, bind, ret. rewrite E3. cbn [app join]. unfold nested.
    destruct (inline_many1_all cfg Hc Ht v Hv) as (l & X). rewrite X. eauto.
  Qed.
  Lemma block_safe : safe (block_ cfg).
  Proof. apply rel_safe. intro n. now apply rel_block_. Qed.
  Lemma block_total : forall s, (blank s /\ block_ cfg s = Err) \/ exists r l, block_ cfg s = Ok r l.
  Proof.
    intros s. destruct (block_ cfg s) as [r l| |] eqn:E; [right; eauto| |now elim (block_safe s)].
    left. split; [|reflexivity]. rewrite block_unfold in E by exact Hc. unfold p_block, preceded, bind in E.
    destruct (many_empty_cases s) as [[X Hb]|(r & l & X & Hn)]; [exact Hb|]. rewrite X in E. exfalso.
    apply alt_err_inv in E. repeat match goal with H : Forall _ (_ :: _) |- _ => inversion H; clear H; subst end.
    match goal with H : conditional_block (b_paragraph cfg) _ _ = Err |- _ => rename H into HP end.
    destruct (paragraph_ok r Hn) as (r2 & a2 & Y).
    destruct (cond_ok _ (b_paragraph cfg) [BEmpty] (pmap BParagraph (p_paragraph cfg (block_ cfg) false)) r Hp) as (r3 & a3 & Z).
    - unfold pmap, bind, ret. rewrite Y. eauto.
    - unfold conditional_block in HP. congruence.
  Qed.
  Lemma block_err : forall s, block_ cfg s = Err -> blank s.
  Proof. intros s E. destruct (block_total s) as [[H _]|(r & l & X)]; [exact H|congruence]. Qed.

  Theorem blocks_blank : forall s r l,
    (many0 (block_ cfg) s = Ok r l \/ many1 (block_ cfg) s = Ok r l) -> blank r.
  Proof. intros s r l [E|E]; [apply many0_stop in E|apply many1_stop in E]; now apply block_err. Qed.

  Lemma tail_ok : forall s, blank s -> exists a, pair_ (many0 (alt [space1; line_ending])) eof s = Ok [] a.
  Proof.
    intros s H. destruct (many0_ok _ (alt [space1; line_ending])) with (s := s) as (r & l & E & Er);
      [eats|apply rel_safe; intro; rel|].
    assert (Hr : blank r).
    { clear Er. assert (G : forall A (p : parser A), (forall s r a, p s = Ok r a -> blank s -> blank r) ->
        forall f s r l, many0_go f p s = Ok r l -> blank s -> blank r).
      { clear. intros A p Hp. induction f as [|f IH]; intros s r l E H; [discriminate|]. cbn [many0_go] in E.
        destruct (p s) as [r1 a| |] eqn:E1; [|injection E as <- _; exact H|discriminate].
        destruct (_ =? _); [discriminate|]. destruct (many0_go f p r1) eqn:E2; try discriminate.
        injection E as <- _. eapply IH; [exact E2|]. eapply Hp; [exact E1|exact H]. }
      eapply G; [|exact E|exact H]. clear. intros s r a E H. cbn [alt] in E. unfold or_else in E.
      destruct (space1 s) as [r1 a1| |] eqn:E1.
      - injection E as <- _. unfold space1, take_while1 in E1. destruct (span is_space s) as [u v] eqn:Es.
        pose proof (span_spec _ _ _ _ Es) as ->. apply span_all in Es as [Hu Hv].
        destruct u; [discriminate|]. injection E1 as <- _. clear Hv.
        revert Hu H. generalize (c :: u). clear. induction 1 as [|x a Hx Ha IH]; intros H; [exact H|].
        apply IH. apply is_space_spec in Hx. cbn in H. inversion H; subst; try assumption; destruct Hx; discriminate.
      - unfold line_ending in E. assert (X : eof_or_eol s = Ok r a) by (unfold eof_or_eol, alt, or_else in *; unfold line_ending, alt, or_else; now rewrite E).
        apply eol_spec in X as [[-> ->]|[->| ->]]; [constructor| |]; inversion H; subst; try assumption;
        match goal with HH : _ \/ _ |- _ => destruct HH; discriminate end.
      - exfalso. revert E1. apply rel_safe. intro; rel. }
    assert (r = []) as ->.
    { apply alt_err_inv in Er. inversion Er as [|? ? E1 E2]; subst. inversion E2 as [|? ? E3 _]; subst.
      inversion Hr; subst; [reflexivity| | |]; exfalso.
      - unfold space1, take_while1 in E1. cbn [span] in E1. assert (is_space c = true) as X by now apply is_space_spec.
        rewrite X in E1. destruct (span is_space s0). discriminate.
      - discriminate E3.
      - discriminate E3. }
    unfold pair_, bind, pmap, bind, ret. rewrite E. cbn. eauto.
  Qed.
  Theorem parse_total : forall s, exists d, parse_markdown cfg s = Ok [] d.
  Proof.
    intros s. rewrite parse_markdown_unfold by exact Hc. unfold p_document, pmap, bind at 1.
    unfold terminated, value, pmap, bind at 1.
    destruct (many0_ok _ (block_ cfg)) with (s := s) as (r & l & E & Er); [now apply eats_block_|exact block_safe|].
    rewrite E. apply block_err in Er. destruct (tail_ok r Er) as (a & X). unfold bind at 1. rewrite X.
    unfold ret. eauto.
  Qed.
End BlockTotal.
