(** Proof of C75: configurations whose custom parsers agree on the texts written
    with the characters of the document read the document alike. *)
From Coq Require Import String Lia.
From Verif Require Import SpecParser Nom ParserInline ParserInlineFacts ParserBlock ParserTotal SyntaxDoc SpecInline SpecBlock SpecCustom ShapeFacts CharFacts.
Import ListNotations.
Open Scope list_scope.

Section Custom.
  Variable Q : char -> Prop.
  Hypothesis Qnl : Q c_nl.
  Notation QS := (Forall Q).
  Variable cfg : config.
  Variables (cb cb' : option (parser (list block))) (ci ci' : option (parser (list inline))).
  Definition set_custom b i : config :=
    Config (allow_no_space_in_headings cfg) (html_entities cfg) (b_blockquote cfg) (b_github_alert cfg) (b_heading_v1 cfg) (b_heading_v2 cfg) (b_thematic_break cfg) (b_list cfg) (b_code_block cfg) (b_html_block cfg) (b_footnote_definition cfg) (b_link_definition cfg) (b_table cfg) (b_paragraph cfg) (i_autolink cfg) (i_link cfg) (i_footnote_reference cfg) (i_reference_link cfg) (i_hard_newline cfg) (i_image cfg) (i_code_span cfg) (i_emphasis cfg) (i_strikethrough cfg) (i_text cfg) b i (punct_table cfg) (upper_table cfg).
  Let c1 := set_custom cb ci.
  Let c2 := set_custom cb' ci'.
  Hypothesis Hc : custom_ok c1.
  Hypothesis Hb : forall t, QS t -> answer cb t = answer cb' t.
  Hypothesis Hi : forall t, QS t -> answer ci t = answer ci' t.

  Definition alike {A} (R R' : rule A) : Prop := forall s p r, QS s -> (R s p r <-> R' s p r).
  Lemma alike_refl : forall A (R : rule A), alike R R.
  Proof. intros A R s p r _. reflexivity. Qed.
  Lemma alike_applies : forall A (R R' : rule A), alike R R' -> forall s, QS s -> (applies R s <-> applies R' s).
  Proof. intros A R R' H s HQ. split; intros (p & r & X); exists p, r; now apply H. Qed.
  Lemma alike_on : forall A B (b : behavior B) (R R' : rule A), alike R R' -> alike (on b R) (on b R').
  Proof. intros A B b R R' H s p r HQ. unfold on. now rewrite (H s p r HQ). Qed.
  Lemma alike_first : forall A (l l' : list (rule A)), Forall2 alike l l' -> alike (first_of l) (first_of l').
  Proof.
    intros A l l' H. induction H as [|R R' l l' X _ IH]; [apply alike_refl|]. intros s p r HQ. cbn [first_of].
    rewrite (X s p r HQ), (alike_applies _ _ _ X s HQ), (IH s p r HQ). reflexivity.
  Qed.
  Lemma run_same : forall b i b' i' s v r, run_of (set_custom b i) s v r -> run_of (set_custom b' i') s v r.
  Proof. intros b i b' i' s v r H. induction H as [s H|c s t r H _ IH]; [now apply run_end|now apply run_char]. Qed.
  Lemma chunk_same : forall b i b' i' s v r, chunk (set_custom b i) s v r -> chunk (set_custom b' i') s v r.
  Proof.
    intros b i b' i' s v r [H|[H|(H1 & H2 & H3 & H4)]]; [now left|right; now left|]. right. right.
    apply (run_same b i b' i') in H4. repeat split; assumption.
  Qed.
  Lemma chunks_same : forall b i b' i' s v r, chunks (set_custom b i) s v r -> chunks (set_custom b' i') s v r.
  Proof.
    intros b i b' i' s v r H. induction H as [s H|s v m l r H _ IH].
    - apply chunks_end. intros v r X. apply (H v r). now apply (chunk_same b' i' b i).
    - eapply chunks_more; [|exact IH]. now apply (chunk_same b i b' i').
  Qed.
  Lemma text_same : forall b i b' i' s v r, r_text (set_custom b i) s v r -> r_text (set_custom b' i') s v r.
  Proof. intros b i b' i' s v r [s' l r' N H]. constructor; [assumption|]. now apply (chunks_same b i b' i'). Qed.
  Lemma alike_text : alike (r_text c1) (r_text c2).
  Proof. intros s p r _. split; apply text_same. Qed.
  Lemma alike_custom : alike (r_custom c1) (r_custom c2).
  Proof.
    intros s p r HQ. pose proof (Hi s HQ) as E. split; intros RC; inversion RC as [q s' l r' C X]; subst s' r'; cbn [c1 c2 custom_inline set_custom] in C.
    - rewrite C in E. cbn [answer] in E. rewrite X in E. destruct ci' as [q'|] eqn:E'; [|discriminate E]. now apply (R_custom c2 q').
    - rewrite C in E. cbn [answer] in E. rewrite X in E. destruct ci as [q'|] eqn:E'; [|discriminate E]. now apply (R_custom c1 q').
  Qed.
  Lemma alike_inline : alike (first_of (inline_rules c1)) (first_of (inline_rules c2)).
  Proof.
    apply alike_first. unfold inline_rules. apply Forall2_app.
    - unfold element_rules. repeat (apply Forall2_cons; [apply alike_refl|]). constructor.
    - apply Forall2_cons; [apply alike_custom|]. apply Forall2_cons; [apply (alike_on _ _ (i_text cfg)), alike_text|constructor].
  Qed.
  Lemma inline_same :
    (forall p i, builds c1 p i -> piece_texts Q p -> builds c2 p i) /\
    (forall p o, yields c1 p o -> piece_texts Q p -> yields c2 p o) /\
    (forall s l, pieces c1 s l -> QS s -> pieces c2 s l) /\
    (forall s l, reads c1 s l -> QS s -> reads c2 s l).
  Proof.
    apply inline_mut; intros; try (constructor; auto; fail); cbn [piece_texts] in *.
    - destruct H3 as [A1 A2]. constructor; auto.
    - destruct H1 as [A1 A2]. constructor; auto.
    - apply (Yields c2). auto.
    - pose proof (q_piece Q c1 Hc _ _ _ H H4) as [T T']. econstructor; [apply alike_inline; eassumption|auto|auto].
    - econstructor; eauto.
  Qed.
  Lemma reads_same : forall s l, reads c1 s l -> QS s -> reads c2 s l.
  Proof. apply inline_same. Qed.

  (** ** Blocks *)
  Lemma alike_custom_block : alike (r_custom_block c1) (r_custom_block c2).
  Proof.
    intros s p r HQ. pose proof (Hb s HQ) as E. split; intros RC; inversion RC as [q s' l r' C X]; subst s' r'; cbn [c1 c2 custom_block set_custom] in C.
    - rewrite C in E. cbn [answer] in E. rewrite X in E. destruct cb' as [q'|] eqn:E'; [|discriminate E]. now apply (R_custom_block c2 q').
    - rewrite C in E. cbn [answer] in E. rewrite X in E. destruct cb as [q'|] eqn:E'; [|discriminate E]. now apply (R_custom_block c1 q').
  Qed.
  Lemma starter_same : forall s, QS s -> (starter c1 s <-> starter c2 s).
  Proof.
    intros s HQ. pose proof (alike_applies _ _ _ alike_custom_block s HQ) as E. unfold starter. rewrite !Exists_cons.
    change (atx c2) with (atx c1). unfold c1, c2 in *. cbn [set_custom b_heading_v1 b_heading_v2 b_thematic_break b_blockquote b_list b_code_block b_html_block b_link_definition b_footnote_definition b_table] in *. tauto.
  Qed.
  Lemma alike_paragraph : alike (paragraph_line c1) (paragraph_line c2).
  Proof. intros s v r HQ. unfold paragraph_line. now rewrite (starter_same s HQ). Qed.
  Lemma alike_repeated : forall A (R R' : rule A) (P : A -> Prop), alike R R' -> (forall s x r, R s x r -> QS s -> P x /\ QS r) -> alike (repeated R) (repeated R').
  Proof.
    intros A R R' P H HR s l r HQ. split; intros X.
    - revert HQ. induction X as [s N|s a m l r X _ IH]; intros HQ; [apply rep_stop; intro Y; apply N; now apply (alike_applies _ _ _ H s HQ)|].
      eapply rep_more; [apply H; eassumption|]. apply IH. now apply HR in X.
    - revert HQ. induction X as [s N|s a m l r X _ IH]; intros HQ; [apply rep_stop; intro Y; apply N; now apply (alike_applies _ _ _ H s HQ)|].
      apply H in X; [|assumption]. eapply rep_more; [eassumption|]. apply IH. now apply HR in X.
  Qed.
  Lemma alike_lines : alike (r_lines c1) (r_lines c2).
  Proof.
    intros s h r HQ. assert (H := alike_repeated _ _ _ QS alike_paragraph (q_paragraph_line Q c1)).
    split; intros RL; inversion RL as [s' ls m l r' N RP U|s' ls r' N RP U]; subst s' r'.
    - eapply R_setext; [assumption|apply H; eassumption|assumption].
    - eapply R_paragraph; [assumption|apply H; eassumption|assumption].
    - eapply R_setext; [assumption|apply H; eassumption|assumption].
    - eapply R_paragraph; [assumption|apply H; eassumption|assumption].
  Qed.
  Lemma alike_blocks : alike (first_of (block_rules c1)) (first_of (block_rules c2)).
  Proof.
    apply alike_first. unfold block_rules.
    repeat (apply Forall2_cons; [first [apply alike_refl|apply alike_custom_block|apply (alike_on _ _ (b_heading_v2 cfg)), alike_lines]|]). constructor.
  Qed.
  Lemma row_same : forall n l c, row_cells c1 n l c -> Forall QS l -> row_cells c2 n l c.
  Proof.
    intros n l c H. induction H as [l|n c _ IH|n t u i l c T R _ IH]; intros HQ; [constructor|constructor; now apply IH|].
    inversion HQ; subst. econstructor; [eassumption|apply reads_same; [assumption|now apply (q_trimmed Q) in T]|now apply IH].
  Qed.
  Lemma block_same :
    (forall h b, makes c1 h b -> shape_texts Q h -> makes c2 h b) /\
    (forall l l', item_blocks c1 l l' -> Forall (fun x => QS (snd x)) l -> item_blocks c2 l l') /\
    (forall h o, makes_all c1 h o -> shape_texts Q h -> makes_all c2 h o) /\
    (forall s bs, blocks c1 s bs -> QS s -> blocks c2 s bs).
  Proof.
    apply block_mut; intros; try (constructor; auto; fail); cbn [shape_texts] in *; try (constructor; apply reads_same; assumption).
    - destruct H1 as [A1 A2]. constructor; [now apply row_same|]. clear H A1. induction H0 as [|x y xs ys X _ IH]; [constructor|]. inversion A2; subst. constructor; [now apply row_same|now apply IH].
    - inversion H3; subst. constructor; auto.
    - apply (Makes c2). auto.
    - apply (q_blanks Q) in H as HQ; [|assumption]. pose proof (q_shape Q Qnl c1 Hc _ _ _ H0 HQ) as (T & _ & T').
      eapply Blocks_more; [eassumption|apply alike_blocks; eassumption|auto|auto].
  Qed.
End Custom.
Lemma local : forall c c' s, custom_ok c -> custom_ok c' -> i_text c <> Ignore -> b_paragraph c <> Ignore -> same_but_custom c c' ->
  (forall t, written_in s t -> answer (custom_block c) t = answer (custom_block c') t) ->
  (forall t, written_in s t -> answer (custom_inline c) t = answer (custom_inline c') t) ->
  parse_markdown c' s = parse_markdown c s.
Proof.
  intros c c' s Hc Hc' Ht Hp SB Hb Hi. destruct (parse_total c Hc Ht Hp s) as [d E]. rewrite E.
  assert (E1 : c = set_custom c (custom_block c) (custom_inline c)) by (destruct c; reflexivity).
  assert (E2 : c' = set_custom c (custom_block c') (custom_inline c')).
  { clear -SB. destruct c, c'. unfold same_but_custom in SB. cbn in SB. decompose [and] SB. subst. reflexivity. }
  assert (Ht' : i_text c' <> Ignore) by (rewrite E2; exact Ht).
  assert (Hp' : b_paragraph c' <> Ignore) by (rewrite E2; exact Hp).
  apply parse_markdown_blocks; try assumption. apply parse_markdown_blocks in E; try assumption.
  rewrite E1 in Hc, E. rewrite E2. revert E.
  set (Q := fun x => In x s \/ x = 10%N).
  assert (W : forall t, Forall Q t -> written_in s t). { intros t H x J. exact (proj1 (Forall_forall _ _) H _ J). }
  intro E. apply (block_same Q (or_intror eq_refl) c (custom_block c) (custom_block c') (custom_inline c) (custom_inline c') Hc).
  - intros t H. apply Hb. now apply W.
  - intros t H. apply Hi. now apply W.
  - exact E.
  - apply Forall_forall. intros x J. now left.
Qed.
