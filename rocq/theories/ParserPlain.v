(** Plain text parses to itself. *)
From Coq Require Import String.
From Verif Require Export ParserCode.
Import ListNotations.
Open Scope list_scope.
Local Notation len := (@List.length _).

(** what may follow plain text: nothing, or a special character other than
    "_" and "[" *)
Definition after_plain (r : str) : Prop :=
  match r with [] => True | h :: _ => In h (lit "<\`*~&") end.

Lemma pmap_e : forall A B (f : A -> B) p s, p s = Err -> pmap f p s = Err.
Proof. intros A B f p s H. unfold pmap, bind. now rewrite H. Qed.
Lemma bind_e : forall A B (p : parser A) (f : A -> parser B) s, p s = Err -> bind p f s = Err.
Proof. intros A B p f s H. unfold bind. now rewrite H. Qed.
Lemma unit_e : forall A (p : parser A) s, p s = Err -> p_unit p s = Err.
Proof. intros. now apply pmap_e. Qed.
Lemma cond_e : forall A (b : behavior A) d p s, p s = Err -> conditional b d p s = Err.
Proof. intros A b d p s H. destruct b; cbn; try reflexivity; now apply pmap_e. Qed.
Lemma condu_e : forall A (b : behavior A) p s, p s = Err -> conditional_unit b p s = Err.
Proof. intros A b p s H. now destruct b. Qed.
Lemma tag_head : forall x t c s, x <> c -> tag (x :: t) (c :: s) = Err.
Proof. intros x t c s H. apply tag_err. intros r E. injection E as E _. congruence. Qed.
Lemma chr_head : forall x c s, ch x <> c -> chr x (c :: s) = Err.
Proof. intros x c s H. unfold chr. now apply char_ne. Qed.

Section Heads.
  Variables (cfg : config) (rec : parser (list inline)) (c : char) (s : str).
  Lemma autolink_e : c <> ch "<" -> p_autolink (c :: s) = Err.
  Proof. intros H. unfold p_autolink, delimited, preceded. apply bind_e, chr_head. congruence. Qed.
  Lemma label_e : c <> ch "[" -> p_link_label rec (c :: s) = Err.
  Proof. intros H. unfold p_link_label, delimited, preceded. apply bind_e, tag_head. cbn. intro E. apply H. now rewrite <- E. Qed.
  Lemma reflink_e : c <> ch "[" -> p_reference_link rec (c :: s) = Err.
  Proof.
    intros H. unfold p_reference_link. apply alt_err. repeat (apply Forall_cons1; [|]); [apply bind_e|apply pmap_e, bind_e|apply pmap_e|constructor]; now apply label_e.
  Qed.
  Lemma ilink_e : c <> ch "[" -> p_inline_link rec (c :: s) = Err.
  Proof. intros H. apply bind_e. now apply label_e. Qed.
  Lemma footref_e : c <> ch "[" -> p_footnote_reference (c :: s) = Err.
  Proof. intros H. apply pmap_e. unfold delimited, preceded. apply bind_e, tag_head. cbn. intro E. apply H. now rewrite <- E. Qed.
  Lemma image_e : c <> ch "!" \/ (forall t, s <> ch "[" :: t) -> p_image (c :: s) = Err.
  Proof.
    intros H. unfold p_image. apply bind_e. unfold preceded, bind at 1. destruct (N.eqb_spec (ch "!") c) as [<-|N].
    - destruct H as [H|H]; [now elim H|]. unfold chr at 1. rewrite char_cons. unfold delimited, preceded. apply bind_e.
      destruct s as [|d t]; [reflexivity|]. apply chr_head. intros <-. now apply (H t).
    - now rewrite chr_head.
  Qed.
  Lemma code_e : c <> backtick -> p_code_span (c :: s) = Err.
  Proof.
    intros H. unfold p_code_span. apply bind_e. unfold recognize, many1, bind. rewrite char_ne; [reflexivity|congruence].
  Qed.
  Lemma open_e : forall x t, x <> c -> p_open_tag cfg (x :: t) (c :: s) = Err.
  Proof. intros x t H. unfold p_open_tag. apply unit_e. unfold verify. now apply bind_e, tag_head. Qed.
  Lemma emphasis_e : c <> ch "*" -> c <> ch "_" -> p_emphasis cfg rec (c :: s) = Err.
  Proof.
    intros H1 H2. assert (X : forall x t, x <> c -> p_emph cfg rec (x :: t) (c :: s) = Err).
    { intros x t H. unfold p_emph, delimited, preceded. now apply bind_e, open_e. }
    assert (Y : forall t, t = lit "***" \/ t = lit "___" \/ t = lit "**" \/ t = lit "__" \/ t = lit "*" \/ t = lit "_" -> p_emph cfg rec t (c :: s) = Err).
    { intros t Ht. repeat destruct Ht as [-> |Ht]; try subst t; apply X; intro E; (apply H1; rewrite <- E; reflexivity) || (apply H2; rewrite <- E; reflexivity). }
    unfold p_emphasis. apply alt_err.
    repeat (apply Forall_cons1; [apply pmap_e, alt_err; repeat (apply Forall_cons1; [apply Y; tauto|]); constructor|]). constructor.
  Qed.
  Lemma strike_e : c <> ch "~" -> p_strikethrough rec (c :: s) = Err.
  Proof. intros H. unfold p_strikethrough. apply bind_e. unfold terminated. apply bind_e, tag_head. cbn. intro E. apply H. now rewrite <- E. Qed.
  Lemma entity_e : c <> ch "&" -> p_html_entity cfg (c :: s) = Err.
  Proof.
    intros H. unfold p_html_entity. apply alt_err. apply Forall_cons1; [|apply Forall_cons1; [|constructor]].
    - unfold p_entity_alpha, map_opt. apply bind_e. unfold recognize, pair_. rewrite bind_e; [reflexivity|]. apply chr_head. congruence.
    - unfold p_entity_numeric, map_opt, delimited, preceded. apply pmap_e, bind_e, bind_e, tag_head. cbn. intro E. apply H. now rewrite <- E.
  Qed.
  Lemma escaped_e : c <> ch "\" -> p_escaped_char (c :: s) = Err.
  Proof. intros H. apply bind_e, chr_head. congruence. Qed.
  Lemma newline_e : c <> ch "\" -> (c = 32%N -> forall t, s <> 32%N :: t) -> p_hard_newline (c :: s) = Err.
  Proof.
    intros H1 H2. unfold p_hard_newline. apply pmap_e, alt_err. apply Forall_cons1; [|apply Forall_cons1; [|constructor]]; apply unit_e, bind_e.
    - apply chr_head. congruence.
    - unfold many_ge. cbn [List.length plus many_m_n]. destruct (N.eqb_spec 32 c) as [<-|N].
      + change (chr " " (32%N :: s)) with (Ok s 32%N). cbv iota. destruct (_ =? _); [reflexivity|]. cbn [pred].
        rewrite Nat.add_comm. cbn [plus many_m_n]. destruct s as [|d t]; [reflexivity|].
        rewrite (chr_head " " d t); [reflexivity|]. intros <-. now apply (H2 eq_refl t).
      + rewrite (chr_head " " c s); [reflexivity|exact N].
  Qed.
End Heads.

Definition word_char (c : char) : bool := is_alnum c || N.eqb c (ch "_").
Lemma env_run : forall n s r l, many0_go n (alt [alphanumeric1; recognize (chr "_")]) s = Ok r l ->
  exists v, s = v ++ r /\ Forall (fun c => word_char c = true) v.
Proof.
  induction n as [|n IH]; intros s r l E; [discriminate|]. cbn [many0_go] in E.
  destruct (alt _ s) as [s1 x| |] eqn:E1; [| |discriminate].
  - destruct (_ =? _); [discriminate|]. destruct (many0_go n _ s1) as [r' l'| |] eqn:E2; try discriminate.
    injection E as -> _. apply IH in E2 as (v & -> & Hv). cbn [alt] in E1. unfold or_else in E1.
    destruct (alphanumeric1 s) as [s2 y| |] eqn:E3.
    + injection E1 as -> _. apply take1_inv in E3 as (-> & _ & H & _). exists (y ++ v). split; [now rewrite app_assoc|].
      apply Forall_app. split; [|exact Hv]. eapply Forall_impl; [|exact H]. intros a Ha. unfold word_char. cbv beta in Ha. now rewrite Ha.
    + unfold recognize in E1. destruct (chr "_" s) as [s2 y| |] eqn:E4; try discriminate. injection E1 as -> _.
      apply char_inv in E4 as ->. exists (ch "_" :: v). split; [reflexivity|]. now constructor.
    + discriminate.
  - injection E as <- _. exists []. split; [reflexivity|constructor].
Qed.
Lemma env_e : forall s r, Forall plain_char s -> after_plain r -> p_environment_variable (s ++ r) = Err.
Proof.
  intros s r Hs Hr. unfold p_environment_variable. apply pmap_e. unfold verify, bind at 1.
  match goal with |- match ?p _ with _ => _ end = _ => destruct (p (s ++ r)) as [r1 v| |] eqn:E end; [|reflexivity|].
  - replace (is_likely_env_var v) with false; [reflexivity|]. symmetry. unfold is_likely_env_var.
    assert (X : existsb (N.eqb (ch "_")) v = false).
    { assert (Y : exists t, s = v ++ t).
      { unfold recognize, pair_, bind at 1 in E. destruct (alpha1 (s ++ r)) as [r2 a| |] eqn:E1; try discriminate.
        apply take1_inv in E1 as (Es & _ & Ha & _). unfold pmap, bind, ret in E.
        destruct (many0 _ r2) as [r3 l| |] eqn:E2; try discriminate. apply env_run in E2 as (w & -> & Hw).
        injection E as <- <-. rewrite Es, app_assoc, firstn_consumed. rewrite app_assoc in Es.
        assert (Hv : Forall (fun c => word_char c = true) (a ++ w)).
        { apply Forall_app. split; [|exact Hw]. eapply Forall_impl; [|exact Ha]. intros x Hx. unfold word_char, is_alnum. cbv beta in Hx. now rewrite Hx. }
        apply app_eq_app in Es as (t & [[-> _]|[E ->]]); [now exists t|]. destruct t as [|h t]; [exists []; rewrite E, !app_nil_r; reflexivity|].
        exfalso. rewrite E in Hv. apply Forall_app in Hv as [_ Hv]. inversion Hv as [|? ? Hh _]; subst. cbn in Hr.
        repeat (destruct Hr as [<-|Hr]; [discriminate Hh|]). exact Hr. }
      destruct Y as (t & ->). apply Forall_app in Hs as [Hs _]. clear - Hs. induction Hs as [|c v Hc _ IH]; [reflexivity|].
      cbn [existsb]. rewrite IH, Bool.orb_false_r. apply N.eqb_neq. intros <-. apply Hc. cbn. tauto. }
    now rewrite X.
  - exfalso. revert E. apply rel_safe. intro. rel.
Qed.
Section Plain.
  Variables (cfg : config) (rec : parser (list inline)).
  Lemma plain_heads : forall c s r, plain_text (c :: s) -> after_plain r ->
    Forall (fun x => c <> x) special_chars /\ (c = 32%N -> forall t, s ++ r <> 32%N :: t) /\ (forall t, s ++ r <> ch "[" :: t).
  Proof.
    intros c s r [H1 H2] Hr. inversion H1 as [|? ? Hc Hs]; subst. split; [|split].
    - apply Forall_forall. intros x Hx ->. now apply Hc.
    - intros -> t E. destruct s as [|d s].
      + cbn in E. subst r. cbn in Hr. repeat (destruct Hr as [Hr|Hr]; [discriminate Hr|]). exact Hr.
      + injection E as -> _. now apply (H2 [] s).
    - intros t E. destruct s as [|d s].
      + cbn in E. subst r. cbn in Hr. repeat (destruct Hr as [Hr|Hr]; [discriminate Hr|]). exact Hr.
      + injection E as -> _. inversion Hs as [|? ? Hd _]; subst. apply Hd. cbn. tauto.
  Qed.
  Ltac heads := match goal with H : Forall (fun x => ?c <> x) special_chars |- _ =>
    repeat match type of H with Forall _ _ => let H1 := fresh "N" in let H2 := fresh "T" in
      first [apply Forall_cons_iff in H as [H1 H2]; rename H2 into H | clear H] end end.
  Lemma plain_not_text : forall c s r, plain_text (c :: s) -> after_plain r ->
    p_not_a_text cfg rec (c :: s ++ r) = Err.
  Proof.
    intros c s r Hp Hr. destruct (plain_heads c s r Hp Hr) as (Hc & Hsp & Hbr). heads.
    unfold p_not_a_text. apply alt_err.
    apply Forall_cons1; [apply condu_e, unit_e, autolink_e; assumption|].
    apply Forall_cons1; [apply condu_e, unit_e, reflink_e; assumption|].
    apply Forall_cons1; [apply condu_e, unit_e, newline_e; assumption|].
    apply Forall_cons1; [apply condu_e, unit_e, entity_e; assumption|].
    apply Forall_cons1; [apply condu_e, unit_e, image_e; right; assumption|].
    apply Forall_cons1; [apply condu_e, unit_e, ilink_e; assumption|].
    apply Forall_cons1; [apply condu_e, unit_e, code_e; assumption|].
    apply Forall_cons1; [apply condu_e, unit_e, emphasis_e; assumption|].
    apply Forall_cons1; [apply condu_e, unit_e, footref_e; assumption|].
    apply Forall_cons1; [apply condu_e, unit_e, strike_e; assumption|].
    apply Forall_cons1; [|constructor]. apply unit_e. change (c :: s ++ r) with ((c :: s) ++ r). apply env_e; [apply Hp|exact Hr].
  Qed.
  Lemma plain_suffix : forall a b, plain_text (a ++ b) -> plain_text b.
  Proof.
    intros a b [H1 H2]. split; [now apply Forall_app in H1|]. intros x y E. apply (H2 (a ++ x) y). now rewrite E, app_assoc.
  Qed.
  Lemma plain_prefix : forall a b, plain_text (a ++ b) -> plain_text a.
  Proof.
    intros a b [H1 H2]. split; [now apply Forall_app in H1|]. intros x y E. apply (H2 x (y ++ b)). rewrite E, <- app_assoc. reflexivity.
  Qed.
  Lemma plain_run : forall s r, s <> [] -> plain_text s -> after_plain r ->
    (r = [] \/ exists r' x, p_not_a_text cfg rec r = Ok r' x) -> p_text_run cfg rec (s ++ r) = Ok r s.
  Proof.
    intros s r Hne Hp Hr Hstop. unfold p_text_run. eapply recognize_ok with (x := s).
    apply (many1_until_ok _ (p_not_a_text cfg rec)).
    - exact Hne.
    - intros a b -> Hb. destruct b as [|c b]; [now elim Hb|]. apply plain_not_text; [now apply plain_suffix in Hp|exact Hr].
    - destruct Hstop as [->|H]; [left|now right]. split; [reflexivity|].
      unfold p_not_a_text. apply alt_err.
      repeat (apply Forall_cons1; [try (apply condu_e); apply unit_e; reflexivity|]). constructor.
  Qed.
  (** the alternatives tried before text fail on plain text *)
  Lemma plain_inline : forall c s r, plain_text (c :: s) -> after_plain r -> custom_inline cfg = None ->
    p_inline cfg rec (c :: s ++ r) = conditional_inline (i_text cfg) (p_text cfg rec) (c :: s ++ r).
  Proof.
    intros c s r Hp Hr Hcu. destruct (plain_heads c s r Hp Hr) as (Hc & Hsp & Hbr). heads.
    unfold p_inline, conditional_inline. cbn [alt]. unfold or_else.
    rewrite (cond_e _ _ _ _ _ (pmap_e _ _ _ _ _ (autolink_e _ (s ++ r) N))).
    rewrite (cond_e _ _ _ _ _ (pmap_e _ _ _ _ _ (ilink_e rec _ (s ++ r) N0))).
    rewrite (cond_e _ _ _ _ _ (footref_e _ (s ++ r) N0)).
    rewrite (cond_e _ _ _ _ _ (reflink_e rec _ (s ++ r) N0)).
    rewrite (cond_e _ _ _ _ _ (newline_e _ (s ++ r) N1 Hsp)).
    rewrite (cond_e _ _ _ _ _ (image_e _ (s ++ r) (or_intror Hbr))).
    rewrite (cond_e _ _ _ _ _ (pmap_e _ _ _ _ _ (code_e _ (s ++ r) N2))).
    rewrite (pmap_e _ _ _ _ _ (env_e (c :: s) r (proj1 Hp) Hr)).
    rewrite (cond_e _ _ _ _ _ (emphasis_e cfg rec _ (s ++ r) N3 N4)).
    rewrite (cond_e _ _ _ _ _ (strike_e rec _ (s ++ r) N5)).
    unfold p_custom_inline. rewrite Hcu. reflexivity.
  Qed.
  (** the alternatives tried before text fail on any head that none of them starts with *)
  Lemma skip_inline : forall c s, c <> ch "<" -> c <> ch "[" -> p_hard_newline (c :: s) = Err -> c <> ch "!" -> c <> backtick ->
    p_environment_variable (c :: s) = Err -> c <> ch "*" -> c <> ch "_" -> c <> ch "~" -> custom_inline cfg = None ->
    p_inline cfg rec (c :: s) = conditional_inline (i_text cfg) (p_text cfg rec) (c :: s).
  Proof.
    intros c s N1 N2 Hn N3 N4 He N5 N6 N7 Hcu.
    unfold p_inline, conditional_inline. cbn [alt]. unfold or_else.
    rewrite (cond_e _ _ _ _ _ (pmap_e _ _ _ _ _ (autolink_e _ s N1))).
    rewrite (cond_e _ _ _ _ _ (pmap_e _ _ _ _ _ (ilink_e rec _ s N2))).
    rewrite (cond_e _ _ _ _ _ (footref_e _ s N2)).
    rewrite (cond_e _ _ _ _ _ (reflink_e rec _ s N2)).
    rewrite (cond_e _ _ _ _ _ Hn).
    rewrite (cond_e _ _ _ _ _ (image_e _ s (or_introl N3))).
    rewrite (cond_e _ _ _ _ _ (pmap_e _ _ _ _ _ (code_e _ s N4))).
    rewrite (pmap_e _ _ _ _ _ He).
    rewrite (cond_e _ _ _ _ _ (emphasis_e cfg rec _ s N5 N6)).
    rewrite (cond_e _ _ _ _ _ (strike_e rec _ s N7)).
    unfold p_custom_inline. rewrite Hcu. reflexivity.
  Qed.
End Plain.
