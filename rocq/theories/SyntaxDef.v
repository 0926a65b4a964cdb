(** Exactness of link definitions, tables and alert markers. *)
From Coq Require Import String Lia.
From Verif Require Import SpecParser Nom NomFacts ParserLeaf ParserTotal ParserCode SpecInline SyntaxFacts SyntaxInline SyntaxInline2 ParserBlock ParserBlockFacts ManyFacts SpecBlock SyntaxLines SyntaxBlock SyntaxBlock2 SyntaxHtml.
Import ListNotations.
Open Scope list_scope.
Local Notation len := (@List.length _).

(** ** Gaps *)
Definition lfs (w : str) : nat := len (filter (N.eqb c_nl) w).
Lemma lfs_app : forall a b, lfs (a ++ b) = lfs a + lfs b.
Proof. intros. unfold lfs. now rewrite filter_app, app_length. Qed.
Lemma lfs_space : forall w, all is_space w -> lfs w = 0.
Proof.
  intros w H. induction H as [|c w Hc H IH]; [reflexivity|]. unfold lfs in *. cbn [filter]. destruct (N.eqb c_nl c) eqn:E; [|exact IH]. apply N.eqb_eq in E as <-. discriminate.
Qed.
Lemma lfs_eol : forall e, is_eol e -> lfs e = 1. Proof. intros e [->| ->]; reflexivity. Qed.
Inductive gaps : str -> Prop :=
| gaps_nil : gaps []
| gaps_eol : forall e w, is_eol e -> gaps w -> gaps (e ++ w)
| gaps_space : forall c w, is_space c = true -> gaps w -> gaps (c :: w).
Lemma gaps_spaces : forall a w, all is_space a -> gaps w -> gaps (a ++ w).
Proof. intros a w H G. induction H; [exact G|]. now apply gaps_space. Qed.
Lemma gaps_lfs0 : forall w, gaps w -> lfs w = 0 -> all is_space w.
Proof.
  induction 1 as [|e w He G IH|c w Hc G IH]; intro L; [constructor| |].
  - rewrite lfs_app, (lfs_eol _ He) in L. lia.
  - constructor; [exact Hc|]. apply IH. change (c :: w) with ([c] ++ w) in L. rewrite lfs_app in L. lia.
Qed.
Lemma gaps_one : forall w, gaps w /\ lfs w <= 1 <-> one_gap w.
Proof.
  intro w. split.
  - intros [G L]. induction G as [|e w He G IH|c w Hc G IH].
    + exists [], [], []. repeat split; auto; constructor.
    + rewrite lfs_app, (lfs_eol _ He) in L. exists [], e, w. split; [reflexivity|]. split; [constructor|]. split; [apply gaps_lfs0; [exact G|lia]|auto].
    + change (c :: w) with ([c] ++ w) in L. rewrite lfs_app in L. destruct IH as (a & e & b & -> & Ha & Hb & He); [lia|]. exists (c :: a), e, b. split; [reflexivity|]. split; [now constructor|auto].
  - intros (a & e & b & -> & Ha & Hb & He). split.
    + apply gaps_spaces; [exact Ha|]. rewrite <- (app_nil_r b). destruct He as [->|He]; [cbn; apply gaps_spaces; [exact Hb|constructor]|]. apply gaps_eol; [exact He|]. apply gaps_spaces; [exact Hb|constructor].
    + rewrite !lfs_app, (lfs_space _ Ha), (lfs_space _ Hb). destruct He as [->|He]; [cbn; lia|]. rewrite (lfs_eol _ He). lia.
Qed.
Lemma gap_space : forall c, is_space c = true -> is_gap c = true.
Proof. intros c H. unfold is_space in H. apply orb_true_iff in H. rewrite !N.eqb_eq in H. destruct H as [->| ->]; reflexivity. Qed.
Lemma nogap_space : forall s, not_first is_gap s -> not_first is_space s.
Proof. intros s. apply not_first_sub, gap_space. Qed.
Lemma nogap_eol : forall s e r, not_first is_gap s -> is_eol e -> s <> e ++ r.
Proof. intros s e r H [->| ->] ->; apply not_first_cons in H; discriminate. Qed.
Definition gap_unit : rule str := fun s v r => (is_eol v /\ s = v ++ r) \/ (v <> [] /\ longest is_space s v r).
Lemma gap_units : forall s r, not_first is_gap r -> ((exists l, l <> [] /\ many_of gap_unit s l r) <-> exists w, w <> [] /\ s = w ++ r /\ gaps w).
Proof.
  intros s r Nr. assert (K : (exists l, many_of gap_unit s l r) <-> exists w, s = w ++ r /\ gaps w).
  { split.
    - intros [l H]. induction H as [s N|s v m l r X L Y IH]; [exists []; split; [reflexivity|constructor]|]. destruct (IH Nr) as (w & -> & G). exists (v ++ w).
      destruct X as [[E ->]|(_ & -> & Hv & _)]; (split; [now rewrite app_assoc|]); [now apply gaps_eol|now apply gaps_spaces].
    - intros (w & -> & G). remember (len w) as n eqn:En. assert (Ln : len w <= n) by lia. clear En. revert w G Ln. induction n as [|n IH]; intros w G Ln.
      + destruct w; [|cbn in Ln; lia]. exists []. apply many_stop. cbn. intros (v & q & [[E Q]|(Nv & Q & Hv & _)]).
        * now apply (nogap_eol _ _ _ Nr E) in Q.
        * destruct v as [|c v]; [now elim Nv|]. rewrite Q in Nr. apply not_first_cons in Nr. inversion Hv; subst. rewrite gap_space in Nr; [discriminate|assumption].
      + destruct G as [|e w He G|c w Hc G]; [apply (IH []); [constructor|cbn; lia]| |].
        * destruct (IH w G) as [l H]; [destruct He as [->| ->]; lenlia|]. exists (e :: l). rewrite <- app_assoc. refine (many_step _ _ e _ _ _ _ _ H); [now left|destruct He as [->| ->]; lenlia].
        * (* a run of spaces *)
          assert (X : exists v w', c :: w = v ++ w' /\ v <> [] /\ all is_space v /\ gaps w' /\ not_first is_space (w' ++ r)).
          { clear IH Ln. revert c Hc. induction G as [|e w He G IHG|d w Hd G IHG]; intros c Hc.
            - exists [c], []. split; [reflexivity|]. split; [discriminate|]. split; [now repeat constructor|]. split; [constructor|now apply nogap_space].
            - exists [c], (e ++ w). split; [reflexivity|]. split; [discriminate|]. split; [now repeat constructor|]. split; [now apply gaps_eol|]. rewrite <- app_assoc. now apply eol_stop.
            - destruct (IHG d Hd) as (v & w' & E & Nv & Hv & G' & N'). exists (c :: v), w'. split; [cbn; now rewrite E|]. split; [discriminate|]. split; [now constructor|auto]. }
          destruct X as (v & w' & E & Nv & Hv & G' & N'). rewrite E in *. destruct (IH w' G') as [l H]; [destruct v; [now elim Nv|]; lenlia|]. exists (v :: l). rewrite <- app_assoc.
          refine (many_step _ _ v _ _ _ _ _ H); [|destruct v; [now elim Nv|]; lenlia]. right. split; [exact Nv|]. split; [reflexivity|]. split; [exact Hv|exact N']. }
  split.
  - intros (l & Nl & H). destruct (proj1 K (ex_intro _ l H)) as (w & -> & G). exists w. split; [|auto]. intros ->. cbn in H. apply many_of_same in H. now elim Nl.
  - intros (w & Nw & -> & G). destruct (proj2 K (ex_intro _ w (conj eq_refl G))) as [l H]. exists l. split; [|exact H]. intros ->. apply many_of_nil in H.
    apply (f_equal (@List.length char)) in H. rewrite app_length in H. destruct w; [now elim Nw|lenlia].
Qed.
Lemma exact_gap_units : exact (many1 (alt [line_ending; space1])) (fun s l r => l <> [] /\ many_of gap_unit s l r).
Proof.
  eapply exact_iff; [ex|]. intros s l r. cbv beta. apply and_iff_compat_l, many_of_ext. clear. intros s v r. unfold gap_unit. split.
  - intros [H|[_ H]]; [left; exact H|right; exact H].
  - intros [H|(N & H)]; [left; exact H|right]. split; [|auto]. intros (a & q & E & ->). destruct H as (Q & Hv & _). destruct v as [|c v]; [now elim N|].
    inversion Hv; subst. destruct E as [->| ->]; injection Q as <- _; discriminate.
Qed.
Lemma exact_ws1_then : forall A (p : parser A) R, exact p R -> (forall s a r, R s a r -> not_first is_gap s) ->
  exact (preceded p_one_line_whitespace1 p) (fun s a r => exists w m, s = w ++ m /\ w <> [] /\ one_gap w /\ R m a r).
Proof.
  intros A p R H G. unfold p_one_line_whitespace1. eapply exact_iff.
  - eapply exact_preceded; [|exact H]. eapply exact_verify, exact_recognize; [apply exact_gap_units|eats].
  - intros s a r. cbv beta. split.
    + intros (w & m & ((-> & l & L) & Lf) & X). apply Nat.leb_le in Lf. destruct (proj1 (gap_units _ _ (G _ _ _ X)) (ex_intro _ l L)) as (w' & Nw & E & Gw). apply app_inv_tail in E as ->.
      exists w', m. split; [reflexivity|]. split; [exact Nw|]. split; [apply gaps_one; auto|exact X].
    + intros (w & m & -> & Nw & One & X). apply gaps_one in One as [Gw Lf]. destruct (proj2 (gap_units (w ++ m) _ (G _ _ _ X))) as (l & L); [eauto|]. exists w, m. split; [|exact X].
      split; [|now apply Nat.leb_le]. split; [reflexivity|]. eauto.
Qed.
Lemma exact_gap0_then : forall A (p : parser A) R, exact p R -> (forall s a r, R s a r -> not_first is_gap s) ->
  exact (preceded (pair_ space0 (pair_ (opt line_ending) space0)) p) (fun s a r => exists w m, s = w ++ m /\ one_gap w /\ R m a r).
Proof.
  intros A p R H G. eapply exact_iff.
  - eapply exact_preceded; [|exact H]. ex.
  - intros s a r. cbv beta. split.
    + intros ((x & e & y) & m & (m1 & (E1 & Hx & _) & m2 & He & E2 & Hy & _) & X). cbn [fst snd] in *. subst s m2. destruct e as [e|].
      * destruct He as [He ->]. exists (x ++ e ++ y), m. split; [now rewrite <- !app_assoc|]. split; [|exact X]. exists x, e, y. auto.
      * destruct He as [-> _]. exists (x ++ [] ++ y), m. split; [now rewrite <- !app_assoc|]. split; [|exact X]. exists x, [], y. auto.
    + intros (w & m & -> & (x & e & y & -> & Hx & Hy & He) & X). pose proof (G _ _ _ X) as N. destruct He as [->|He].
      * exists (x ++ y, (None, [])), m. split; [|exact X]. cbn [fst snd app]. exists m. split; [split; [now rewrite <- ?app_assoc|]; split; [now apply all_app|now apply nogap_space]|].
        exists m. split; [|split; [reflexivity|]; split; [constructor|now apply nogap_space]]. split; [reflexivity|]. intros (e & q & He & Q). exact (nogap_eol _ _ _ N He Q).
      * exists (x, (Some e, y)), m. split; [|exact X]. cbn [fst snd]. exists (e ++ y ++ m). split; [split; [now rewrite <- !app_assoc|]; split; [exact Hx|now apply eol_stop]|].
        exists (y ++ m). split; [auto|]. split; [reflexivity|]. split; [exact Hy|now apply nogap_space].
Qed.
(** ** Trimming *)
Lemma trim_start_split : forall s, exists a, s = a ++ trim_start s /\ all is_whitespace a /\ forall c, begins_with c (trim_start s) -> is_whitespace c = false.
Proof.
  induction s as [|c s (a & E & Ha & Hb)].
  - exists []. split; [reflexivity|]. split; [constructor|]. intros c [t Q]. discriminate.
  - unfold trim_start in *. cbn [trim_start_by]. destruct (is_whitespace c) eqn:W.
    + exists (c :: a). split; [cbn; now rewrite <- E|]. split; [now constructor|exact Hb].
    + exists []. split; [reflexivity|]. split; [constructor|]. intros x [t Q]. injection Q as <- _. exact W.
Qed.
Lemma trim_end_split : forall s, exists b, s = trim_end s ++ b /\ all is_whitespace b /\ forall v c, trim_end s = v ++ [c] -> is_whitespace c = false.
Proof.
  induction s as [|c s (b & E & Hb & Hl)].
  - exists []. split; [reflexivity|]. split; [constructor|]. intros v c Q. destruct v; discriminate.
  - unfold trim_end in *. cbn [trim_end_by]. destruct (trim_end_by is_whitespace s) as [|d t] eqn:T.
    + destruct (is_whitespace c) eqn:W.
      * exists (c :: s). split; [reflexivity|]. split; [constructor; [exact W|]; cbn in E; subst b; exact Hb|]. intros v x Q. destruct v; discriminate.
      * exists b. split; [cbn; now rewrite E at 1|]. split; [exact Hb|]. intros v x Q. destruct v as [|y v]; [injection Q as <-; exact W|]. destruct v; discriminate.
    + exists b. split; [cbn; now rewrite E at 1|]. split; [exact Hb|]. intros v x Q. destruct v as [|y v]; [discriminate|]. injection Q as _ Q. eapply Hl, Q.
Qed.
Lemma trim_end_head : forall s c, begins_with c (trim_end s) -> begins_with c s.
Proof. intros s c [t T]. destruct (trim_end_split s) as (b & E & _). rewrite E, T. eexists. reflexivity. Qed.
Lemma trimmed_trim : forall s, trimmed s (trim s).
Proof.
  intro s. destruct (trim_start_split s) as (a & E & Ha & Hs). destruct (trim_end_split (trim_start s)) as (b & E' & Hb & Hl). exists a, b. unfold trim.
  split; [rewrite E at 1; now rewrite E' at 1|]. split; [exact Ha|]. split; [exact Hb|]. split; [|exact Hl]. intros c B. apply Hs. now apply trim_end_head.
Qed.
Lemma trimmed_eq : forall s u, trimmed s u <-> u = trim s.
Proof.
  intros s u. split; [|intros ->; apply trimmed_trim]. intros (a & b & -> & Ha & Hb & Hs & Hl). unfold trim. rewrite trim_start_ws by exact Ha. destruct u as [|c u].
  - cbn [app]. symmetry. assert (T : trim_start b = []) by (rewrite <- (app_nil_r b), trim_start_ws by exact Hb; reflexivity). rewrite T. reflexivity.
  - assert (T : trim_start ((c :: u) ++ b) = (c :: u) ++ b) by (unfold trim_start; cbn [app trim_start_by]; rewrite (Hs c (ex_intro _ u eq_refl)); reflexivity). rewrite T.
    destruct (exists_last (l := c :: u)) as (v & d & E); [discriminate|]. rewrite E, <- app_assoc. cbn [app]. symmetry. apply trim_end_app; [eapply Hl, E|exact Hb].
Qed.
Lemma trim_idem : forall s, trim (trim s) = trim s.
Proof. intro s. symmetry. apply trimmed_eq. destruct (trimmed_trim s) as (a & b & _ & _ & _ & Hs & Hl). exists [], []. rewrite app_nil_r. repeat split; auto; constructor. Qed.
Lemma trim_space : forall s, trim (c_sp :: s) = trim s.
Proof. reflexivity. Qed.

(** ** Inline contents *)
Section Cfg.
  Variable cfg : config.
  Hypothesis Hcustom : custom_ok cfg.
  Hypothesis Htext : i_text cfg <> Ignore.
  Lemma inline0_safe : safe (inline_many0 cfg).
  Proof. intros s E. destruct (inline_many0_all cfg Hcustom Htext s) as [l L]. congruence. Qed.
  Lemma reads_total : forall x, exists l, reads cfg x l.
  Proof. intro x. destruct (inline_many0_all cfg Hcustom Htext x) as [l L]. exists l. now apply inline_many0_reads. Qed.
  Lemma reads_fun : forall x l l', reads cfg x l -> reads cfg x l' -> l = l'.
  Proof. intros x l l' H H'. apply inline_many0_reads in H, H'; try assumption. congruence. Qed.
  Lemma reads1 : forall x l, x <> [] -> (inline_many1 cfg x = Ok [] l <-> reads cfg x l).
  Proof.
    intros x l N. rewrite <- inline_many0_reads by assumption. split; [now apply inline_many01|]. now apply many01_reads.
  Qed.
  Lemma exact_inl0 : forall x, exact (nested (inline_many0 cfg) x) (fun s a r => r = s /\ reads cfg x a).
  Proof.
    intro x. eapply exact_iff; [apply exact_nested_any, inline0_safe|]. intros s a r. cbv beta. apply and_iff_compat_l. destruct (inline_many0_all cfg Hcustom Htext x) as [l L]. split.
    - intros [r' E]. assert (r' = []) as -> by congruence. now apply inline_many0_reads.
    - intro H. exists []. now apply inline_many0_reads.
  Qed.
  Lemma exact_inl1 : forall x, exact (nested (inline_many1 cfg) x) (fun s a r => r = s /\ x <> [] /\ reads cfg x a).
  Proof.
    intro x. eapply exact_iff; [apply exact_nested_any, rec_safe; assumption|]. intros s a r. cbv beta. apply and_iff_compat_l. split.
    - intros [r' E]. assert (N : x <> []).
      { intros ->. exact (inline_many1_nil cfg _ _ Hcustom E). }
      split; [exact N|]. destruct (rec_all cfg Hcustom Htext x N) as [l L]. assert (r' = []) as -> by congruence. now apply reads1.
    - intros [N H]. exists []. now apply reads1.
  Qed.

  (** ** Link definitions *)
  Lemma exact_definition : exact (p_link_definition cfg) (fun s x r => exists label d t l, r_definition s (HDefinition label d t) r /\ reads cfg label l /\ x = LinkDefinition l d t).
  Proof.
    assert (GT : forall s a r, title_at s a r -> not_first is_gap s) by (intros s a r; apply title_not_gap).
    assert (GD : forall s a r, destination_at s a r -> not_first is_gap s) by (intros s a r; apply dest_not_gap).
    unfold p_link_definition. eapply exact_iff.
    - eapply exact_bind.
      { eapply exact_up3; [apply exact_label; [apply rec_safe; assumption|apply rec_all; assumption]|]. intros t a r (text & (raw & E & _) & _). discriminate. }
      intro label. eapply exact_bind; [ex|]. intro u1. cbv beta.
      match goal with |- exact (bind ?p (fun _ => ?q)) _ => change (bind p (fun _ => q)) with (preceded p q) end.
      eapply (exact_gap0_then _ _ (fun s x r => exists d m1, destination_at s d m1 /\ exists t m2, match t with Some a => definition_title m1 a m2 | None => m1 = m2 /\ ~ applies definition_title m1 end /\
         exists v, (m2 = v ++ r /\ line_end m2 r) /\ x = LinkDefinition label d t)).
      + eapply exact_iff.
        * eapply exact_bind; [apply exact_destination|]. intro d. eapply exact_bind; [eapply exact_opt, exact_ws1_then; [apply exact_link_title|exact GT]|]. intro t.
          eapply exact_bind; [apply exact_eof_or_eol|]. intro u. apply exact_ret.
        * intros s x r. cbv beta. split.
          -- intros (d & m1 & H1 & t & m2 & H2 & v & m3 & H3 & -> & ->). exists d, m1. split; [exact H1|]. exists t, m2. split; [exact H2|]. eauto.
          -- intros (d & m1 & H1 & t & m2 & H2 & v & H3 & ->). exists d, m1. split; [exact H1|]. exists t, m2. split; [exact H2|]. exists v, r. auto.
      + intros s x r (d & m1 & H & _). eapply GD, H.
    - intros s x r. cbv beta. split.
      + intros (l & m & (k & s' & -> & Lk & text & Hb & Hr) & _ & m' & (_ & ->) & w & m0 & -> & Hw & d & m1 & Hd & t & m2 & Ht & v & (-> & Hl) & ->).
        exists text, d, t, l. split; [|split; [|reflexivity]].
        * econstructor; try eassumption. destruct t as [t|]; [left; eauto|right]. destruct Ht as [<- Ht]. auto.
        * apply reads1; [|exact Hr]. destruct Hb as (raw & _ & _ & F). now apply label_nonempty.
      + intros (text & d & t & l & H & Hr & ->). inversion H as [k s' label w m d' m1 t' m2 r' Lk Hb Hw Hd Ht Hl]; subst.
        exists l, (ch ":" :: w ++ m). split.
        * exists k, s'. split; [reflexivity|]. split; [exact Lk|]. exists text. split; [exact Hb|]. apply reads1; [|exact Hr]. destruct Hb as (raw & _ & _ & F). now apply label_nonempty.
        * exists (ch ":"), (w ++ m). split; [auto|]. exists w, m. split; [reflexivity|]. split; [exact Hw|]. exists d, m1. split; [exact Hd|]. exists t, m2. split.
          -- destruct Ht as [(a & -> & Ht)|(-> & -> & Ht)]; auto.
          -- apply line_end_iff in Hl as K. destruct K as [(e & _ & ->)|[-> ->]]; [exists e|exists []]; auto.
  Qed.
End Cfg.
