(** Identity hooks do not change the parser (C53). *)
From Coq Require Import String.
From Verif Require Export SpecParser ParserBlock.
Import ListNotations.
Open Scope list_scope.

Definition eqv {A} (p q : parser A) : Prop := forall s, p s = q s.
Lemma eqv_refl : forall A (p : parser A), eqv p p. Proof. easy. Qed.
Lemma eqv_bind : forall A B (p p' : parser A) (f f' : A -> parser B), eqv p p' -> (forall a, eqv (f a) (f' a)) -> eqv (bind p f) (bind p' f').
Proof. intros A B p p' f f' H K s. unfold bind. rewrite H. destruct (p' s); try reflexivity. apply K. Qed.
Lemma eqv_opt : forall A (p p' : parser A), eqv p p' -> eqv (opt p) (opt p').
Proof. intros A p p' H s. unfold opt. now rewrite H. Qed.
Lemma eqv_not : forall A (p p' : parser A), eqv p p' -> eqv (not_ p) (not_ p').
Proof. intros A p p' H s. unfold not_. now rewrite H. Qed.
Lemma eqv_peek : forall A (p p' : parser A), eqv p p' -> eqv (peek p) (peek p').
Proof. intros A p p' H s. unfold peek. now rewrite H. Qed.
Lemma eqv_recognize : forall A (p p' : parser A), eqv p p' -> eqv (recognize p) (recognize p').
Proof. intros A p p' H s. unfold recognize. now rewrite H. Qed.
Lemma eqv_nested : forall A (p p' : parser A) c, eqv p p' -> eqv (nested p c) (nested p' c).
Proof. intros A p p' c H s. unfold nested. now rewrite H. Qed.
Lemma eqv_or : forall A (p p' q q' : parser A), eqv p p' -> eqv q q' -> eqv (or_else p q) (or_else p' q').
Proof. intros A p p' q q' H K s. unfold or_else. rewrite H. destruct (p' s); auto. Qed.
Lemma eqv_alt : forall A (l l' : list (parser A)), Forall2 eqv l l' -> eqv (alt l) (alt l').
Proof.
  intros A l l' H. induction H as [|p p' l l' Hp Hl IH]; [easy|]. destruct Hl; [exact Hp|]. now apply eqv_or.
Qed.
Lemma eqv_many0 : forall A (p p' : parser A), eqv p p' -> eqv (many0 p) (many0 p').
Proof.
  intros A p p' H s. unfold many0. generalize (S (List.length s)). intro n. revert s.
  induction n as [|n IH]; intros s; [reflexivity|]. cbn [many0_go]. rewrite H. destruct (p' s); auto. now rewrite IH.
Qed.
Lemma eqv_sep_go : forall A B (t t' : parser B) (p p' : parser A), eqv t t' -> eqv p p' -> forall n s, sep_go n t p s = sep_go n t' p' s.
Proof.
  intros A B t t' p p' Ht Hp. induction n as [|n IH]; intros s; [reflexivity|]. cbn [sep_go]. rewrite Ht. destruct (t' s); auto.
  rewrite Hp. destruct (p' rest); auto. now rewrite IH.
Qed.
Lemma eqv_sep0 : forall A B (t t' : parser B) (p p' : parser A), eqv t t' -> eqv p p' -> eqv (separated_list0 t p) (separated_list0 t' p').
Proof.
  intros A B t t' p p' Ht Hp s. unfold separated_list0. rewrite Hp. destruct (p' s); auto.
  unfold pmap, bind. now rewrite (eqv_sep_go _ _ _ _ _ _ Ht Hp).
Qed.
Lemma eqv_sep1 : forall A B (t t' : parser B) (p p' : parser A), eqv t t' -> eqv p p' -> eqv (separated_list1 t p) (separated_list1 t' p').
Proof.
  intros A B t t' p p' Ht Hp. apply eqv_bind; [exact Hp|]. intros a s. unfold pmap, bind. now rewrite (eqv_sep_go _ _ _ _ _ _ Ht Hp).
Qed.
Lemma Forall2_c : forall A B (R : A -> B -> Prop) x y l l', R x y -> Forall2 R l l' -> Forall2 R (x :: l) (y :: l').
Proof. intros. now constructor. Qed.
Lemma eqv_cond : forall A (b b' : behavior A) d p p', same_behavior b b' -> eqv p p' -> eqv (conditional b d p) (conditional b' d p').
Proof.
  intros A b b' d p p' H Hp. assert (X : eqv (conditional b d p) (conditional b d p')).
  { destruct b; intro s; cbn; try reflexivity; unfold value, pmap, bind; now rewrite Hp. }
  intro s. rewrite X. clear - H. destruct H as [->|[-> [(f & -> & H)|(f & -> & H)]]]; [reflexivity| |];
    cbn; unfold pmap, bind, ret; destruct (p' s); auto; now rewrite H.
Qed.
Lemma eqv_unit : forall A (b b' : behavior A) p p', same_behavior b b' -> eqv p p' -> eqv (conditional_unit b p) (conditional_unit b' p').
Proof.
  intros A b b' p p' H Hp. destruct H as [->|[-> [(f & -> & H)|(f & -> & H)]]]; cbn; [destruct b; easy| |]; exact Hp.
Qed.
Lemma eqv_vec : forall b b' p p', same_behavior b b' -> eqv p p' -> eqv (conditional_block_vec b p) (conditional_block_vec b' p').
Proof.
  intros b b' p p' H Hp. destruct H as [->|[-> [(f & -> & H)|(f & -> & H)]]]; cbn; [destruct b; cbn; try easy| |]; try exact Hp.
  apply eqv_bind; [exact Hp|easy].
Qed.
Ltac eqv0 :=
  repeat first
   [ assumption
   | apply eqv_refl
   | progress cbv beta
   | progress unfold terminated, delimited, preceded, pair_, value, pmap, verify, map_opt, p_unit, many1, line_terminated, conditional_block, conditional_inline
   | lazymatch goal with
     | |- Forall2 _ _ _ => first [apply Forall2_c | apply Forall2_nil]
     | |- eqv (conditional _ _ _) _ => apply eqv_cond
     | |- eqv (conditional_unit _ _) _ => apply eqv_unit
     | |- eqv (conditional_block_vec _ _) _ => match goal with K : forall p p', eqv p p' -> eqv (conditional_block_vec _ p) (conditional_block_vec _ p') |- _ => apply K end
     | |- eqv (alt _) _ => apply eqv_alt
     | |- eqv (opt _) _ => apply eqv_opt
     | |- eqv (not_ _) _ => apply eqv_not
     | |- eqv (peek _) _ => apply eqv_peek
     | |- eqv (recognize _) _ => apply eqv_recognize
     | |- eqv (nested _ _) _ => apply eqv_nested
     | |- eqv (or_else _ _) _ => apply eqv_or
     | |- eqv (many0 _) _ => apply eqv_many0
     | |- eqv (separated_list0 _ _) _ => apply eqv_sep0
     | |- eqv (separated_list1 _ _) _ => apply eqv_sep1
     | |- eqv (bind _ _) _ => apply eqv_bind; [|intros ?]
     | |- eqv (match ?x with _ => _ end) _ => destruct x
     end ].

(** the same configuration but for the alert switch, and alert parsers that behave the same *)
Definition same_rest (c c' : config) : Prop :=
  (allow_no_space_in_headings c' = allow_no_space_in_headings c /\ html_entities c' = html_entities c /\
   custom_block c' = custom_block c /\ custom_inline c' = custom_inline c /\
   punct_table c' = punct_table c /\ upper_table c' = upper_table c) /\
  (same_behavior (b_blockquote c) (b_blockquote c') /\
   same_behavior (b_heading_v1 c) (b_heading_v1 c') /\ same_behavior (b_heading_v2 c) (b_heading_v2 c') /\
   same_behavior (b_thematic_break c) (b_thematic_break c') /\ same_behavior (b_list c) (b_list c') /\
   same_behavior (b_code_block c) (b_code_block c') /\ same_behavior (b_html_block c) (b_html_block c') /\
   same_behavior (b_footnote_definition c) (b_footnote_definition c') /\
   same_behavior (b_link_definition c) (b_link_definition c') /\
   same_behavior (b_table c) (b_table c') /\ same_behavior (b_paragraph c) (b_paragraph c')) /\
  (same_behavior (i_autolink c) (i_autolink c') /\ same_behavior (i_link c) (i_link c') /\
   same_behavior (i_footnote_reference c) (i_footnote_reference c') /\
   same_behavior (i_reference_link c) (i_reference_link c') /\
   same_behavior (i_hard_newline c) (i_hard_newline c') /\ same_behavior (i_image c) (i_image c') /\
   same_behavior (i_code_span c) (i_code_span c') /\ same_behavior (i_emphasis c) (i_emphasis c') /\
   same_behavior (i_strikethrough c) (i_strikethrough c') /\ same_behavior (i_text c) (i_text c')).
Section Same.
  Variables c c' : config.
  Hypothesis H : same_rest c c'.
  Hypothesis Hal : forall p p', eqv p p' -> eqv (conditional_block_vec (b_github_alert c) p) (conditional_block_vec (b_github_alert c') p').
  Lemma eqv_label : forall r r', eqv r r' -> eqv (p_link_label r) (p_link_label r').
  Proof. intros r r' Hr. unfold p_link_label. eqv0. Qed.
  Lemma eqv_ilink : forall r r', eqv r r' -> eqv (p_inline_link r) (p_inline_link r').
  Proof. intros r r' Hr. unfold p_inline_link. pose proof (eqv_label _ _ Hr). eqv0. Qed.
  Lemma eqv_reflink : forall r r', eqv r r' -> eqv (p_reference_link r) (p_reference_link r').
  Proof. intros r r' Hr. unfold p_reference_link. pose proof (eqv_label _ _ Hr). eqv0. Qed.
  Lemma eqv_emphasis : forall r r', eqv r r' -> eqv (p_emphasis c r) (p_emphasis c' r').
  Proof.
    intros r r' Hr. unfold p_emphasis, p_emph.
    assert (O : forall t, p_open_tag c' t = p_open_tag c t).
    { intro t. unfold p_open_tag, can_open, is_punct. destruct H as ((_ & _ & _ & _ & -> & _) & _). reflexivity. }
    assert (C : forall t, p_close_tag c' t = p_close_tag c t).
    { intro t. unfold p_close_tag, can_close, is_punct. destruct H as ((_ & _ & _ & _ & -> & _) & _). reflexivity. }
    rewrite !O, !C. assert (E : forall t, eqv (p_emphasis_content r t) (p_emphasis_content r' t)) by (intro; unfold p_emphasis_content; eqv0).
    repeat first [apply E | progress eqv0].
  Qed.
  Lemma eqv_strike : forall r r', eqv r r' -> eqv (p_strikethrough r) (p_strikethrough r').
  Proof. intros r r' Hr. unfold p_strikethrough. eqv0. Qed.
  Lemma ent_eq : p_html_entity c' = p_html_entity c.
  Proof. unfold p_html_entity, p_entity_alpha. destruct H as ((_ & -> & _) & _). reflexivity. Qed.
  Lemma eqv_not_text : forall r r', eqv r r' -> eqv (p_not_a_text c r) (p_not_a_text c' r').
  Proof.
    intros r r' Hr. unfold p_not_a_text. rewrite ent_eq.
    pose proof (eqv_ilink _ _ Hr). pose proof (eqv_reflink _ _ Hr). pose proof (eqv_emphasis _ _ Hr). pose proof (eqv_strike _ _ Hr).
    assert (HH := H). unfold same_rest in HH. decompose [and] HH. eqv0.
  Qed.
  Lemma eqv_text : forall r r', eqv r r' -> eqv (p_text c r) (p_text c' r').
  Proof.
    intros r r' Hr. unfold p_text, p_text_run. rewrite ent_eq. pose proof (eqv_not_text _ _ Hr). eqv0.
  Qed.
  Lemma eqv_inline : forall r r', eqv r r' -> eqv (p_inline c r) (p_inline c' r').
  Proof.
    intros r r' Hr. unfold p_inline.
    assert (X : p_custom_inline c' = p_custom_inline c) by (unfold p_custom_inline; destruct H as ((_ & _ & _ & -> & _) & _); reflexivity).
    rewrite X. pose proof (eqv_ilink _ _ Hr). pose proof (eqv_reflink _ _ Hr). pose proof (eqv_emphasis _ _ Hr). pose proof (eqv_strike _ _ Hr).
    pose proof (eqv_text _ _ Hr). assert (HH := H). unfold same_rest in HH. decompose [and] HH. eqv0.
  Qed.
  Lemma eqv_many1f : forall n, eqv (inline_many1_f c n) (inline_many1_f c' n).
  Proof. induction n as [|n IH]; [apply eqv_refl|]. cbn [inline_many1_f]. pose proof (eqv_inline _ _ IH). eqv0. Qed.
  Lemma eqv_inline1 : eqv (inline_many1 c) (inline_many1 c').
  Proof. intro s. apply eqv_many1f. Qed.
  Lemma eqv_inline0 : eqv (inline_many0 c) (inline_many0 c').
  Proof.
    intro s. unfold inline_many0. pose proof (eqv_inline _ _ (eqv_many1f (List.length s))).
    match goal with |- pmap _ ?p s = pmap _ ?q s => enough (eqv (pmap (fun ll => merge_consecutive_text_elements (concat ll)) p) (pmap (fun ll => merge_consecutive_text_elements (concat ll)) q)) as X; [apply X|] end.
    eqv0.
  Qed.
  Lemma eqv_heading1 : eqv (p_heading_v1 c) (p_heading_v1 c').
  Proof.
    unfold p_heading_v1. assert (X : allow_no_space_in_headings c' = allow_no_space_in_headings c) by (now destruct H as ((-> & _) & _)).
    rewrite X. pose proof eqv_inline0. eqv0.
  Qed.
  Lemma eqv_linkdef : eqv (p_link_definition c) (p_link_definition c').
  Proof. unfold p_link_definition. pose proof (eqv_label _ _ eqv_inline1). eqv0. Qed.
  Lemma eqv_row : eqv (p_table_row c) (p_table_row c').
  Proof. unfold p_table_row, p_cell_content. pose proof eqv_inline0. eqv0. Qed.
  Lemma eqv_table : eqv (p_table c) (p_table c').
  Proof. unfold p_table. pose proof eqv_row. eqv0. Qed.
  Lemma eqv_quote : forall r r', eqv r r' -> eqv (p_blockquote r) (p_blockquote r').
  Proof. intros r r' Hr. unfold p_blockquote. eqv0. Qed.
  Lemma eqv_alert : forall r r', eqv r r' -> eqv (p_github_alert c r) (p_github_alert c' r').
  Proof.
    intros r r' Hr. unfold p_github_alert.
    assert (X : parse_alert_marker c' = parse_alert_marker c).
    { unfold parse_alert_marker, to_uppercase. destruct H as ((_ & _ & _ & _ & _ & ->) & _). reflexivity. }
    rewrite X. apply eqv_bind; [apply eqv_refl|]. intro l. destruct (parse_alert_marker c (trim l)); [|apply eqv_refl].
    apply eqv_bind; [apply eqv_refl|]. intros ls. destruct (join [c_nl] (tl ls)); eqv0.
  Qed.
  Lemma eqv_item : forall r r', eqv r r' -> eqv (p_list_item r) (p_list_item r').
  Proof. intros r r' Hr. unfold p_list_item. eqv0. Qed.
  Lemma eqv_list : forall r r', eqv r r' -> eqv (p_list r) (p_list r').
  Proof. intros r r' Hr. unfold p_list. pose proof (eqv_item _ _ Hr). eqv0. Qed.
  Lemma eqv_foot : forall r r', eqv r r' -> eqv (p_footnote_definition r) (p_footnote_definition r').
  Proof. intros r r' Hr. unfold p_footnote_definition. eqv0. Qed.
  Lemma custom_eq : p_custom_block c' = p_custom_block c.
  Proof. unfold p_custom_block. destruct H as ((_ & _ & -> & _) & _). reflexivity. Qed.
  Lemma eqv_start : forall r r', eqv r r' -> eqv (p_is_paragraph_line_start c r) (p_is_paragraph_line_start c' r').
  Proof.
    intros r r' Hr. unfold p_is_paragraph_line_start. rewrite custom_eq.
    pose proof eqv_heading1. pose proof (eqv_quote _ _ Hr). pose proof (eqv_item _ _ Hr). pose proof eqv_linkdef.
    pose proof (eqv_foot _ _ Hr). pose proof eqv_table. assert (HH := H). unfold same_rest in HH. decompose [and] HH. eqv0.
  Qed.
  Lemma eqv_para : forall r r' b, eqv r r' -> eqv (p_paragraph c r b) (p_paragraph c' r' b).
  Proof. intros r r' b Hr. unfold p_paragraph. pose proof (eqv_start _ _ Hr). pose proof eqv_inline1. eqv0. Qed.
  Lemma eqv_block : forall r r', eqv r r' -> eqv (p_block c r) (p_block c' r').
  Proof.
    intros r r' Hr. unfold p_block, p_heading_v2_or_paragraph. rewrite custom_eq.
    pose proof eqv_heading1. pose proof (eqv_quote _ _ Hr). pose proof (eqv_list _ _ Hr). pose proof eqv_linkdef.
    pose proof (eqv_foot _ _ Hr). pose proof eqv_table. pose proof (eqv_alert _ _ Hr). pose proof (eqv_para _ _ true Hr). pose proof (eqv_para _ _ false Hr).
    assert (HH := H). unfold same_rest in HH. decompose [and] HH. eqv0.
  Qed.
  Lemma eqv_blockf : forall n, eqv (block_f c n) (block_f c' n).
  Proof. induction n as [|n IH]; [apply eqv_refl|]. cbn [block_f]. now apply eqv_block. Qed.
  Theorem same_rest_parse : forall s, parse_markdown c s = parse_markdown c' s.
  Proof.
    intro s. unfold parse_markdown, p_document. pose proof (eqv_blockf (S (List.length s))) as X.
    revert s X. intros s X. generalize dependent (block_f c (S (List.length s))). generalize (block_f c' (S (List.length s))). intros p' p X.
    match goal with |- ?a s = ?b s => enough (eqv a b) as Y; [apply Y|] end. eqv0.
  Qed.
End Same.

Theorem same_parse : forall c c', same_config c c' -> forall s, parse_markdown c s = parse_markdown c' s.
Proof.
  intros c c' H. apply same_rest_parse.
  - unfold same_config in H. unfold same_rest. tauto.
  - intros p p' Hp. apply eqv_vec; [|exact Hp]. unfold same_config in H. tauto.
Qed.
Lemma same_behavior_refl : forall A (b : behavior A), same_behavior b b. Proof. now left. Qed.
(** an alert hook is never run *)
Lemma alert_hook_ignored : forall cfg b, (exists f, b = MapB f) \/ (exists g, b = FlatMap g) ->
  forall s, parse_markdown (same_except_alert cfg b) s = parse_markdown (same_except_alert cfg Parse) s.
Proof.
  intros cfg b Hb. apply same_rest_parse.
  - unfold same_rest. cbn. repeat split; apply same_behavior_refl.
  - intros p p' Hp. destruct Hb as [[f ->]|[g ->]]; exact Hp.
Qed.
