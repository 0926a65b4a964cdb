(** Consumption and fuel-independence of the inline parser. *)
From Coq Require Import String.
From Verif Require Export ParserInline NomFacts.
Import ListNotations.
Open Scope list_scope.
Local Notation len := (@List.length _).

Lemma eats_eof_or_eol : eats false eof_or_eol. Proof. unfold eof_or_eol; eats. Qed.
Lemma rel_eof_or_eol : forall n, rel n eof_or_eol eof_or_eol. Proof. intro; unfold eof_or_eol; rel. Qed.
#[export] Hint Resolve eats_eof_or_eol rel_eof_or_eol : pars.
Lemma eats_not_eol1 : eats true not_eof_or_eol1. Proof. unfold not_eof_or_eol1; eats. Qed.
Lemma rel_not_eol1 : forall n, rel n not_eof_or_eol1 not_eof_or_eol1. Proof. intro; unfold not_eof_or_eol1; rel. Qed.
Lemma eats_not_eol0 : eats false not_eof_or_eol0. Proof. unfold not_eof_or_eol0; eats. Qed.
Lemma rel_not_eol0 : forall n, rel n not_eof_or_eol0 not_eof_or_eol0. Proof. intro; unfold not_eof_or_eol0; rel. Qed.
Lemma eats_up3 : eats false up_to_3_spaces. Proof. unfold up_to_3_spaces; eats. Qed.
Lemma rel_up3 : forall n, rel n up_to_3_spaces up_to_3_spaces. Proof. intro; unfold up_to_3_spaces; rel. Qed.
Lemma rel_many_empty : forall n, rel n many_empty_lines0 many_empty_lines0. Proof. intro; unfold many_empty_lines0; rel. Qed.
Lemma eats_many_empty : eats false many_empty_lines0. Proof. unfold many_empty_lines0; eats. Qed.
#[export] Hint Resolve eats_not_eol1 rel_not_eol1 eats_not_eol0 rel_not_eol0 eats_up3 rel_up3 rel_many_empty eats_many_empty : pars.

Lemma eats_autolink : eats true p_autolink. Proof. unfold p_autolink, p_uri, p_email, p_scheme; eats. Qed.
Lemma rel_autolink : forall n, rel n p_autolink p_autolink. Proof. intro; unfold p_autolink, p_uri, p_email, p_scheme; rel. Qed.
#[export] Hint Resolve eats_autolink rel_autolink : pars.

Lemma eats_code_span : eats true p_code_span. Proof. unfold p_code_span; eats. Qed.
Lemma rel_code_span : forall n, rel n p_code_span p_code_span. Proof. intro; unfold p_code_span; rel. Qed.
#[export] Hint Resolve eats_code_span rel_code_span : pars.

Lemma eats_env : eats true p_environment_variable. Proof. unfold p_environment_variable; eats. Qed.
Lemma rel_env : forall n, rel n p_environment_variable p_environment_variable. Proof. intro; unfold p_environment_variable; rel. Qed.
Lemma eats_fnref : eats true p_footnote_reference. Proof. unfold p_footnote_reference; eats. Qed.
Lemma rel_fnref : forall n, rel n p_footnote_reference p_footnote_reference. Proof. intro; unfold p_footnote_reference; rel. Qed.
Lemma eats_hardnl : eats true p_hard_newline. Proof. unfold p_hard_newline; eats. Qed.
Lemma rel_hardnl : forall n, rel n p_hard_newline p_hard_newline. Proof. intro; unfold p_hard_newline; rel. Qed.
Lemma eats_entity : forall cfg, eats true (p_html_entity cfg).
Proof. intro; unfold p_html_entity, p_entity_alpha, p_entity_numeric; eats. Qed.
Lemma rel_entity : forall n cfg, rel n (p_html_entity cfg) (p_html_entity cfg).
Proof. intros; unfold p_html_entity, p_entity_alpha, p_entity_numeric; rel. Qed.
#[export] Hint Resolve eats_env rel_env eats_fnref rel_fnref eats_hardnl rel_hardnl eats_entity rel_entity : pars.

Lemma eats_escaped_any : eats true p_escaped_any. Proof. unfold p_escaped_any; eats. Qed.
Lemma rel_escaped_any : forall n, rel n p_escaped_any p_escaped_any. Proof. intro; unfold p_escaped_any; rel. Qed.
Lemma eats_escaped_char : eats true p_escaped_char. Proof. unfold p_escaped_char; eats. Qed.
Lemma rel_escaped_char : forall n, rel n p_escaped_char p_escaped_char. Proof. intro; unfold p_escaped_char; rel. Qed.
#[export] Hint Resolve eats_escaped_any rel_escaped_any eats_escaped_char rel_escaped_char : pars.

Lemma eats_link_title : eats true p_link_title. Proof. unfold p_link_title, p_title_inner; eats. Qed.
Lemma rel_link_title : forall n, rel n p_link_title p_link_title. Proof. intro; unfold p_link_title, p_title_inner; rel. Qed.
#[export] Hint Resolve eats_link_title rel_link_title : pars.

Lemma eats_bp : forall f, eats true (balanced_parens_f f).
Proof.
  induction f as [|f IH]; [intros ? ? ? E; discriminate|]. cbn [balanced_parens_f].
  pose proof (eats_weaken _ _ _ IH). eats.
Qed.
Lemma rel_bp : forall n f f', n < f -> n < f' -> rel n (balanced_parens_f f) (balanced_parens_f f').
Proof.
  induction n as [|n IH]; intros [|f] [|f'] H H'; try lia; cbn [balanced_parens_f].
  - pose proof (eats_bp f). pose proof (eats_weaken _ _ _ H0).
    intros [|c s] Hs; cbn in Hs; [|lia]. split; [reflexivity|discriminate].
  - pose proof (eats_bp f). pose proof (eats_weaken _ _ _ H0).
    assert (rel n (balanced_parens_f f) (balanced_parens_f f')) by (apply IH; lia).
    unfold p_unit, delimited. unf_goal. cbv beta. apply rel_bind; [eats| |intro; apply rel_ret].
    apply rel_bind_t; [eats|rel|]. intros _ m E. injection E as <-. rel.
Qed.
Lemma eats_balanced : eats true p_balanced_parens.
Proof. intros s r a E. exact (eats_bp _ _ _ _ E). Qed.
Lemma rel_balanced : forall n, rel n p_balanced_parens p_balanced_parens.
Proof. intros n s _. split; [reflexivity|]. unfold p_balanced_parens. apply (rel_bp (len s) (S (len s)) (S (len s))); lia. Qed.
#[export] Hint Resolve eats_balanced rel_balanced : pars.

Lemma eats_link_dest : eats true p_link_destination.
Proof. unfold p_link_destination, p_link_destination1, p_link_destination2; eats. Qed.
Lemma rel_link_dest : forall n, rel n p_link_destination p_link_destination.
Proof. intro; unfold p_link_destination, p_link_destination1, p_link_destination2; rel. Qed.
#[export] Hint Resolve eats_link_dest rel_link_dest : pars.

Lemma eats_link_tail : eats true p_link_tail. Proof. unfold p_link_tail; eats. Qed.
Lemma rel_link_tail : forall n, rel n p_link_tail p_link_tail. Proof. intro; unfold p_link_tail; rel. Qed.
#[export] Hint Resolve eats_link_tail rel_link_tail : pars.
Lemma eats_image : eats true p_image. Proof. unfold p_image; eats. Qed.
Lemma rel_image : forall n, rel n p_image p_image. Proof. intro; unfold p_image; rel. Qed.
#[export] Hint Resolve eats_image rel_image : pars.

Lemma eats_label_chars : eats true p_label_chars. Proof. unfold p_label_chars; eats. Qed.
Lemma rel_label_chars : forall n, rel n p_label_chars p_label_chars. Proof. intro; unfold p_label_chars; rel. Qed.
Lemma vlen_label_chars : vlen p_label_chars.
Proof. unfold p_label_chars. apply vlen_verify, vlen_many1. eats. Qed.
#[export] Hint Resolve eats_label_chars rel_label_chars : pars.

Lemma open_tag_ok : forall cfg t s r a, p_open_tag cfg t s = Ok r a -> exists v, tag t s = Ok r v.
Proof.
  intros cfg t s r a E. unfold p_open_tag, p_unit, value, pmap, verify, bind, ret in E.
  destruct (tag t s) as [r1 v| |]; try discriminate. exists v.
  destruct (can_open _ _ _); [|discriminate]. now injection E as <- _.
Qed.
Lemma close_tag_ok : forall cfg t s r a, p_close_tag cfg t s = Ok r a -> exists v, tag t s = Ok r v.
Proof.
  intros cfg t s r a E. unfold p_close_tag, p_unit, value, pmap, verify, bind, ret in E.
  destruct (tag t s) as [r1 v| |]; try discriminate. exists v.
  destruct (can_close _ _ _); [|discriminate]. now injection E as <- _.
Qed.
Lemma eats_open_tag : forall cfg x t, eats true (p_open_tag cfg (x :: t)).
Proof. intros cfg x t s r a E. destruct (open_tag_ok _ _ _ _ _ E) as (v & Ev). exact (eats_tag_by _ _ _ _ _ _ Ev). Qed.
Lemma eats_close_tag : forall cfg x t, eats true (p_close_tag cfg (x :: t)).
Proof. intros cfg x t s r a E. destruct (close_tag_ok _ _ _ _ _ E) as (v & Ev). exact (eats_tag_by _ _ _ _ _ _ Ev). Qed.
Lemma rel_open_tag : forall n cfg t, rel n (p_open_tag cfg t) (p_open_tag cfg t).
Proof.
  intros n cfg t s _. split; [reflexivity|]. unfold p_open_tag, p_unit, value, pmap, verify, bind, ret, tag, tag_by.
  destruct (tag_go _ _ _); [|discriminate]. destruct (can_open _ _ _); discriminate.
Qed.
Lemma rel_close_tag : forall n cfg t, rel n (p_close_tag cfg t) (p_close_tag cfg t).
Proof.
  intros n cfg t s _. split; [reflexivity|]. unfold p_close_tag, p_unit, value, pmap, verify, bind, ret, tag, tag_by.
  destruct (tag_go _ _ _); [|discriminate]. destruct (can_close _ _ _); discriminate.
Qed.
#[export] Hint Resolve eats_open_tag eats_close_tag rel_open_tag rel_close_tag : pars.

(** A custom parser that behaves: what remains is a proper suffix of the input. *)
Definition custom_ok (cfg : config) : Prop :=
  (forall p, custom_inline cfg = Some p -> eats true p /\ forall s, p s <> Oof) /\
  (forall p, custom_block cfg = Some p -> eats true p /\ forall s, p s <> Oof).

Section Rec.
  Variable cfg : config.
  Hypothesis Hcustom : custom_ok cfg.

  Lemma eats_link_label : forall rec, eats true (p_link_label rec).
  Proof. intro; unfold p_link_label; eats. Qed.
  #[local] Hint Resolve eats_link_label : pars.
  Lemma eats_inline_link : forall rec, eats true (p_inline_link rec).
  Proof. intro; unfold p_inline_link; eats. Qed.
  Lemma eats_reference_link : forall rec, eats true (p_reference_link rec).
  Proof. intro; unfold p_reference_link; eats. Qed.
  Lemma eats_emph : forall rec x t, eats true (p_emph cfg rec (x :: t)).
  Proof. intros; unfold p_emph, p_emphasis_content; eats. Qed.
  #[local] Hint Resolve eats_inline_link eats_reference_link eats_emph : pars.
  Lemma eats_emphasis : forall rec, eats true (p_emphasis cfg rec).
  Proof.
    intros rec; unfold p_emphasis.
    pose proof (eats_emph rec (ch "*") (lit "**")). pose proof (eats_emph rec (ch "*") (lit "*")).
    pose proof (eats_emph rec (ch "*") []). pose proof (eats_emph rec (ch "_") (lit "__")).
    pose proof (eats_emph rec (ch "_") (lit "_")). pose proof (eats_emph rec (ch "_") []). eats.
  Qed.
  Lemma eats_strikethrough : forall rec, eats true (p_strikethrough rec).
  Proof. intro; unfold p_strikethrough; eats. Qed.
  #[local] Hint Resolve eats_emphasis eats_strikethrough : pars.
  Lemma eats_not_a_text : forall rec, eats true (p_not_a_text cfg rec).
  Proof. intro; unfold p_not_a_text; eats. Qed.
  Lemma eats_text_run : forall rec, eats true (p_text_run cfg rec).
  Proof. intro; unfold p_text_run; eats. Qed.
  #[local] Hint Resolve eats_text_run : pars.
  Lemma eats_text : forall rec, eats true (p_text cfg rec).
  Proof. intro; unfold p_text; eats. Qed.
  Lemma eats_custom_inline : eats true (p_custom_inline cfg).
  Proof.
    unfold p_custom_inline. destruct (custom_inline cfg) eqn:E; [|apply eats_fail].
    now apply Hcustom.
  Qed.
  #[local] Hint Resolve eats_text eats_custom_inline : pars.
  Lemma eats_inline : forall rec, eats true (p_inline cfg rec).
  Proof. intro; unfold p_inline; eats. Qed.

  (** The recursive calls are made on shorter strings. *)
  Variable n : nat.
  Variables rec rec' : parser (list inline).
  Hypothesis Hrec : forall m, m < n -> rel m rec rec'.

  Lemma rel_nested_lt : forall k c, len c < n -> rel k (nested rec c) (nested rec' c).
  Proof. intros k c Hc. eapply rel_nested; [apply Hrec; exact Hc|lia]. Qed.

  Lemma rel_link_label : rel n (p_link_label rec) (p_link_label rec').
  Proof.
    unfold p_link_label. unf_goal. apply rel_bind_t; [eats|rel|].
    intros _ m E. apply rel_bind; [eats| |intro; rel].
    apply rel_bind_v; [apply vlen_label_chars|apply rel_label_chars|].
    intros a Ha. apply rel_nested_lt. lia.
  Qed.
  #[local] Hint Resolve rel_link_label : pars.
  Lemma rel_inline_link : rel n (p_inline_link rec) (p_inline_link rec').
  Proof. unfold p_inline_link; rel. Qed.
  Lemma rel_reference_link : rel n (p_reference_link rec) (p_reference_link rec').
  Proof. unfold p_reference_link; rel. Qed.
  Lemma rel_emph : forall x t, rel n (p_emph cfg rec (x :: t)) (p_emph cfg rec' (x :: t)).
  Proof.
    intros. unfold p_emph, p_emphasis_content. unf_goal. apply rel_bind_t; [eats|rel|].
    intros _ m E. apply rel_bind; [eats| |intro; rel].
    apply rel_bind_v; [apply vlen_recognize; eats|rel|].
    intros a Ha. apply rel_nested_lt. lia.
  Qed.
  #[local] Hint Resolve rel_inline_link rel_reference_link : pars.
  Lemma rel_emphasis : rel n (p_emphasis cfg rec) (p_emphasis cfg rec').
  Proof.
    unfold p_emphasis.
    pose proof (eats_weaken _ _ _ (eats_emph rec (ch "*") (lit "**"))). pose proof (eats_weaken _ _ _ (eats_emph rec (ch "*") (lit "*"))).
    pose proof (eats_weaken _ _ _ (eats_emph rec (ch "*") [])). pose proof (eats_weaken _ _ _ (eats_emph rec (ch "_") (lit "__"))).
    pose proof (eats_weaken _ _ _ (eats_emph rec (ch "_") (lit "_"))). pose proof (eats_weaken _ _ _ (eats_emph rec (ch "_") [])).
    pose proof (rel_emph (ch "*") (lit "**")). pose proof (rel_emph (ch "*") (lit "*")).
    pose proof (rel_emph (ch "*") []). pose proof (rel_emph (ch "_") (lit "__")).
    pose proof (rel_emph (ch "_") (lit "_")). pose proof (rel_emph (ch "_") []). rel.
  Qed.
  Lemma rel_strikethrough : rel n (p_strikethrough rec) (p_strikethrough rec').
  Proof.
    unfold p_strikethrough. unf_goal. cbv zeta. apply rel_bind_t; [eats|rel|].
    intros _ m E. apply rel_bind_v; [apply vlen_recognize; eats|rel|].
    intros a Ha. apply rel_bind; [eats|rel|]. intros _.
    apply rel_bind; [eats| |intro; rel]. apply rel_nested_lt. lia.
  Qed.
  #[local] Hint Resolve rel_emphasis rel_strikethrough : pars.
  Lemma rel_not_a_text : rel n (p_not_a_text cfg rec) (p_not_a_text cfg rec').
  Proof. unfold p_not_a_text; rel. Qed.
  #[local] Hint Resolve rel_not_a_text : pars.
  Lemma rel_text_run : rel n (p_text_run cfg rec) (p_text_run cfg rec').
  Proof. unfold p_text_run; rel. Qed.
  #[local] Hint Resolve rel_text_run : pars.
  Lemma rel_text : rel n (p_text cfg rec) (p_text cfg rec').
  Proof. unfold p_text; rel. Qed.
  Lemma rel_custom_inline : rel n (p_custom_inline cfg) (p_custom_inline cfg).
  Proof.
    unfold p_custom_inline. destruct (custom_inline cfg) eqn:E; [|apply rel_fail].
    intros s _. split; [reflexivity|]. now apply Hcustom.
  Qed.
  #[local] Hint Resolve rel_text rel_custom_inline : pars.
  Lemma rel_inline : rel n (p_inline cfg rec) (p_inline cfg rec').
  Proof. unfold p_inline; rel. Qed.
End Rec.
#[export] Hint Resolve eats_link_label eats_inline_link eats_reference_link eats_emphasis
  eats_strikethrough eats_not_a_text eats_text_run eats_text eats_custom_inline eats_inline : pars.

(** ** Tying the knot *)
Lemma rel_inline_many1_f : forall cfg, custom_ok cfg -> forall n f f', n < f -> n < f' ->
  rel n (inline_many1_f cfg f) (inline_many1_f cfg f').
Proof.
  intros cfg Hc. induction n as [n IH] using lt_wf_ind. intros [|f] [|f'] H H'; try lia.
  cbn [inline_many1_f]. unfold pmap. apply rel_bind; [eats| |intro; apply rel_ret].
  apply rel_many1; [eats|]. apply rel_inline; [exact Hc|]. intros m Hm. apply IH; lia.
Qed.
Lemma inline_many1_f_eq : forall cfg, custom_ok cfg -> forall f s, len s < f ->
  inline_many1_f cfg f s = inline_many1 cfg s.
Proof. intros cfg Hc f s H. unfold inline_many1. apply (rel_inline_many1_f cfg Hc (len s)); lia. Qed.
Lemma rel_inline_many1_f1 : forall cfg, custom_ok cfg -> forall n f, n < f ->
  rel n (inline_many1_f cfg f) (inline_many1 cfg).
Proof.
  intros cfg Hc n f H s Hs. split; [apply inline_many1_f_eq; [exact Hc|lia]|].
  apply (rel_inline_many1_f cfg Hc (len s) f f); lia.
Qed.
Lemma rel_inline_many1 : forall cfg, custom_ok cfg -> forall n, rel n (inline_many1 cfg) (inline_many1 cfg).
Proof.
  intros cfg Hc n s Hs. split; [reflexivity|]. unfold inline_many1.
  apply (rel_inline_many1_f cfg Hc (len s) (S (len s)) (S (len s))); lia.
Qed.

(** The equations of the program, without fuel. *)
Theorem inline_many1_unfold : forall cfg, custom_ok cfg -> forall s,
  inline_many1 cfg s =
  pmap (fun ll => merge_consecutive_text_elements (concat ll)) (many1 (p_inline cfg (inline_many1 cfg))) s.
Proof.
  intros cfg Hc s. unfold inline_many1 at 1. cbn [inline_many1_f].
  assert (X : rel (len s) (pmap (fun ll => merge_consecutive_text_elements (concat ll)) (many1 (p_inline cfg (inline_many1_f cfg (len s)))))
    (pmap (fun ll => merge_consecutive_text_elements (concat ll)) (many1 (p_inline cfg (inline_many1 cfg))))).
  { unfold pmap. apply rel_bind; [eats| |intro; apply rel_ret].
    apply rel_many1; [eats|]. apply rel_inline; [exact Hc|]. intros m Hm. now apply rel_inline_many1_f1. }
  apply X. lia.
Qed.
Theorem inline_many0_unfold : forall cfg, custom_ok cfg -> forall s,
  inline_many0 cfg s =
  pmap (fun ll => merge_consecutive_text_elements (concat ll)) (many0 (p_inline cfg (inline_many1 cfg))) s.
Proof.
  intros cfg Hc s. unfold inline_many0.
  assert (X : rel (len s) (pmap (fun ll => merge_consecutive_text_elements (concat ll)) (many0 (p_inline cfg (inline_many1_f cfg (len s)))))
    (pmap (fun ll => merge_consecutive_text_elements (concat ll)) (many0 (p_inline cfg (inline_many1 cfg))))).
  { unfold pmap. apply rel_bind; [eats| |intro; apply rel_ret].
    apply rel_many0; [eats|]. apply rel_inline; [exact Hc|]. intros m Hm. now apply rel_inline_many1_f1. }
  apply X. lia.
Qed.
Lemma rel_inline_many0 : forall cfg, custom_ok cfg -> forall n, rel n (inline_many0 cfg) (inline_many0 cfg).
Proof.
  intros cfg Hc n s Hs. split; [reflexivity|]. rewrite inline_many0_unfold by exact Hc.
  unfold pmap. refine (proj2 (_ : _ = _ /\ _)). eapply (rel_bind _ _ (len s)); [eats| |intro; apply rel_ret|lia].
  apply rel_many0; [eats|]. apply rel_inline; [exact Hc|]. intros m Hm. now apply rel_inline_many1.
Qed.
#[export] Hint Resolve rel_inline_many1 rel_inline_many0 : pars.
