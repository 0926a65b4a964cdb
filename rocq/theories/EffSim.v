(** The parser with effects against the pure one. *)
From Coq Require Import String Lia.
From Verif Require Export EffParser.
Import ListNotations.
Open Scope list_scope.

Definition rrel {A} (R : A -> A -> Prop) (x y : res A) : Prop :=
  match x, y with
  | Ok r a, Ok r' b => r = r' /\ R a b
  | Err, Err | Oof, Oof => True
  | _, _ => False
  end.
Definition esim {W A} (R : A -> A -> Prop) (p : eparser W A) (q : parser A) : Prop :=
  forall s w, rrel R (fst (p s w)) (q s).

Section Combinators.
  Context {W : Type}.
  Ltac ca H s w := let X := fresh "X" in
    pose proof (H s w) as X; revert X;
    match goal with |- rrel _ (fst (?p s w)) (?q s) -> _ => destruct (p s w) as [[? ?| |] ?]; destruct (q s) as [? ?| |] end;
    cbn [rrel fst]; intro X; try contradiction; try exact I.
  Lemma sim_lift : forall A (R : A -> A -> Prop) p, (forall a, R a a) -> @esim W A R (lift p) p.
  Proof. intros A R p H s w. cbn. destruct (p s); cbn; auto. Qed.
  Lemma sim_fail : forall A (R : A -> A -> Prop), @esim W A R efail fail.
  Proof. intros A R s w. exact I. Qed.
  Lemma sim_ret : forall A (R : A -> A -> Prop) a b, R a b -> @esim W A R (eret a) (ret b).
  Proof. intros A R a b H s w. cbn. auto. Qed.
  Lemma sim_bind : forall A B (R : A -> A -> Prop) (Q : B -> B -> Prop) p q f g,
    @esim W A R p q -> (forall a b, R a b -> @esim W B Q (f a) (g b)) -> @esim W B Q (ebind p f) (bind q g).
  Proof.
    intros A B R Q p q f g H Hf s w. unfold ebind, bind. ca H s w. destruct X as [-> X]. apply Hf, X.
  Qed.
  Lemma sim_map : forall A B (R : A -> A -> Prop) (Q : B -> B -> Prop) p q f g,
    @esim W A R p q -> (forall a b, R a b -> Q (f a) (g b)) -> @esim W B Q (emap f p) (pmap g q).
  Proof. intros. eapply sim_bind; [eassumption|]. intros. apply sim_ret. auto. Qed.
  Lemma sim_run : forall A B (R : A -> A -> Prop) (Q : B -> B -> Prop) p q f g,
    @esim W A R p q -> (forall a b w, R a b -> Q (fst (f a w)) (g b)) -> @esim W B Q (erun f p) (pmap g q).
  Proof.
    intros. eapply sim_bind; [eassumption|]. intros a b Hab s w. specialize (H0 a b w Hab).
    destruct (f a w). cbn in *. auto.
  Qed.
  Lemma sim_value : forall A B (R : A -> A -> Prop) (Q : B -> B -> Prop) p q v v',
    @esim W A R p q -> Q v v' -> @esim W B Q (evalue v p) (value v' q).
  Proof. intros. eapply sim_map; [eassumption|]. auto. Qed.
  Lemma sim_opt : forall A (R : A -> A -> Prop) p q, @esim W A R p q ->
    @esim W (option A) (fun x y => match x, y with Some a, Some b => R a b | None, None => True | _, _ => False end) (eopt p) (opt q).
  Proof. intros A R p q H s w. unfold eopt, opt. ca H s w; cbn; auto. Qed.
  Lemma sim_not : forall A (R : A -> A -> Prop) p q, @esim W A R p q -> @esim W unit eq (enot p) (not_ q).
  Proof. intros A R p q H s w. unfold enot, not_. ca H s w; cbn; auto. Qed.
  Lemma sim_peek : forall A (R : A -> A -> Prop) p q, @esim W A R p q -> @esim W A R (epeek p) (peek q).
  Proof. intros A R p q H s w. unfold epeek, peek. ca H s w; cbn; intuition. Qed.
  Lemma sim_recognize : forall A (R : A -> A -> Prop) p q, @esim W A R p q -> @esim W str eq (erecognize p) (recognize q).
  Proof. intros A R p q H s w. unfold erecognize, recognize. ca H s w; cbn. destruct X as [-> X]. auto. Qed.
  Lemma sim_preceded : forall A B (R : A -> A -> Prop) (Q : B -> B -> Prop) p q p' q',
    @esim W A R p q -> @esim W B Q p' q' -> @esim W B Q (epreceded p p') (preceded q q').
  Proof. intros. eapply sim_bind; [eassumption|]. auto. Qed.
  Lemma sim_terminated : forall A B (R : A -> A -> Prop) (Q : B -> B -> Prop) p q p' q',
    @esim W A R p q -> @esim W B Q p' q' -> @esim W A R (eterminated p p') (terminated q q').
  Proof. intros. eapply sim_bind; [eassumption|]. intros. eapply sim_value; eauto. Qed.
  Lemma sim_delimited : forall A B C (R : A -> A -> Prop) (Q : B -> B -> Prop) (T : C -> C -> Prop) p q p' q' p'' q'',
    @esim W A R p q -> @esim W B Q p' q' -> @esim W C T p'' q'' -> @esim W B Q (edelimited p p' p'') (delimited q q' q'').
  Proof. intros. eapply sim_preceded; [eassumption|]. eapply sim_terminated; eassumption. Qed.
  Lemma sim_or : forall A (R : A -> A -> Prop) p q p' q', @esim W A R p q -> @esim W A R p' q' ->
    @esim W A R (eor_else p p') (or_else q q').
  Proof. intros A R p q p' q' H H' s w. unfold eor_else, or_else. ca H s w; cbn; auto. Qed.
  Lemma sim_alt : forall A (R : A -> A -> Prop) l l', Forall2 (@esim W A R) l l' -> @esim W A R (ealt l) (alt l').
  Proof.
    induction 1 as [|p q l l' H Hl IH]; [apply sim_fail|]. destruct Hl; [exact H|].
    exact (sim_or _ _ _ _ _ _ H IH).
  Qed.
  Lemma sim_many0 : forall A (R : A -> A -> Prop) p q, @esim W A R p q -> @esim W (list A) (Forall2 R) (emany0 p) (many0 q).
  Proof.
    intros A R p q H s w. unfold emany0, many0. generalize (S (List.length s)) as n. intros n. revert s w.
    induction n as [|n IH]; intros s w; [exact I|]. cbn [emany0_go many0_go]. ca H s w; cbn; auto.
    destruct X as [-> X]. destruct (_ =? _); [exact I|]. pose proof (IH rest0 w0) as Y. revert Y.
    destruct (emany0_go n p rest0 w0) as [[? ?| |] ?]; destruct (many0_go n q rest0); cbn; try tauto.
    intros [-> Y]. split; [reflexivity|]. now constructor.
  Qed.
  Lemma sim_many1 : forall A (R : A -> A -> Prop) p q, @esim W A R p q -> @esim W (list A) (Forall2 R) (emany1 p) (many1 q).
  Proof.
    intros. eapply sim_bind; [eassumption|]. intros. eapply sim_map; [apply sim_many0; eassumption|]. intros. now constructor.
  Qed.
  Lemma sim_sep_go : forall A B (R : A -> A -> Prop) (Q : B -> B -> Prop) sep sep' p q,
    @esim W B Q sep sep' -> @esim W A R p q ->
    @esim W (list A) (Forall2 R) (fun s w => esep_go (S (List.length s)) sep p s w) (fun s => sep_go (S (List.length s)) sep' q s).
  Proof.
    intros A B R Q sep sep' p q Hs H s w. generalize (S (List.length s)) as n. intros n. revert s w.
    induction n as [|n IH]; intros s w; [exact I|]. cbn [esep_go sep_go]. ca Hs s w; cbn; auto.
    destruct X as [-> _]. ca H rest0 w0; cbn; auto. destruct X as [-> X].
    destruct (_ =? _); [exact I|]. match goal with |- rrel _ (fst (match esep_go n sep p ?r ?v with _ => _ end)) _ => pose proof (IH r v) as Y; revert Y;
      destruct (esep_go n sep p r v) as [[? ?| |] ?]; destruct (sep_go n sep' q r) end; cbn; try tauto.
    intros [-> Y]. split; [reflexivity|]. now constructor.
  Qed.
  Lemma sim_sep1 : forall A B (R : A -> A -> Prop) (Q : B -> B -> Prop) sep sep' p q,
    @esim W B Q sep sep' -> @esim W A R p q -> @esim W (list A) (Forall2 R) (eseparated_list1 sep p) (separated_list1 sep' q).
  Proof.
    intros. eapply sim_bind; [eassumption|]. intros. eapply sim_map; [eapply sim_sep_go; eassumption|]. intros. now constructor.
  Qed.
  Lemma sim_sep0 : forall A B (R : A -> A -> Prop) (Q : B -> B -> Prop) sep sep' p q,
    @esim W B Q sep sep' -> @esim W A R p q -> @esim W (list A) (Forall2 R) (eseparated_list0 sep p) (separated_list0 sep' q).
  Proof.
    intros A B R Q sep sep' p q Hs H s w. unfold eseparated_list0, separated_list0. ca H s w; cbn [fst rrel]; auto.
    destruct X as [-> X]. eapply sim_map; [eapply sim_sep_go; eassumption|]. intros. now constructor.
  Qed.
  Lemma sim_nested : forall A (R : A -> A -> Prop) p q c, @esim W A R p q -> @esim W A R (enested p c) (nested q c).
  Proof. intros A R p q c H s w. unfold enested, nested. ca H c w; cbn; intuition. Qed.
  Lemma sim_weaken : forall A (R Q : A -> A -> Prop) p q, (forall a b, R a b -> Q a b) -> @esim W A R p q -> @esim W A Q p q.
  Proof. intros A R Q p q HR H s w. ca H s w; cbn; intuition. Qed.
  Lemma sim_ext : forall A (R : A -> A -> Prop) (p p' : eparser W A) q, (forall s w, p' s w = p s w) -> esim R p q -> esim R p' q.
  Proof. intros A R p p' q H H' s w. rewrite H. apply H'. Qed.
End Combinators.

(** ** Related configurations.  [exact]: the closures answer as the pure ones
    whatever the state; otherwise only what is switched off has to agree. *)
Section Sim.
  Context {W : Type}.
  Variable exact : bool.
  Definition eqv {A} (a b : A) : Prop := if exact then a = b else True.
  Lemma eqv_refl : forall A (a : A), eqv a a. Proof. intros. unfold eqv. now destruct exact. Qed.
  Lemma eqv_f : forall A B (f : A -> B) a b, eqv a b -> eqv (f a) (f b).
  Proof. intros A B f a b. unfold eqv. destruct exact; congruence. Qed.
  Lemma eqv_f2 : forall A B C (f : A -> B -> C) a b a' b', eqv a b -> eqv a' b' -> eqv (f a a') (f b b').
  Proof. intros A B C f a b a' b'. unfold eqv. destruct exact; congruence. Qed.
  Lemma eqv_list : forall A (l l' : list A), Forall2 eqv l l' -> eqv l l'.
  Proof. intros A l l' H. unfold eqv in *. destruct exact; [|exact I]. induction H; congruence. Qed.

  Definition behaves {A} (b : ebehavior W A) (c : behavior A) : Prop :=
    match b, c with
    | EParse, Parse | EIgnore, Ignore | ESkip, Skip => True
    | EMap f, MapB g => forall a w, eqv (fst (f a w)) (g a)
    | EFlatMap f, FlatMap g => forall a w, eqv (fst (f a w)) (g a)
    | EMap f, Parse => forall a w, eqv (fst (f a w)) a
    | EFlatMap f, Parse => forall a w, eqv (fst (f a w)) [a]
    | _, _ => False
    end.
  Definition customs {A} (p : option (eparser W A)) (q : option (parser A)) : Prop :=
    match p, q with Some p, Some q => esim eqv p q | None, None => True | _, _ => False end.

  Variables (E : econfig W) (cfg : config).
  Hypothesis Hallow : e_allow_no_space_in_headings E = allow_no_space_in_headings cfg.
  Hypothesis Hent : e_html_entities E = html_entities cfg.
  Hypothesis Hpunct : e_punct_table E = punct_table cfg.
  Hypothesis Hupper : e_upper_table E = upper_table cfg.
  Hypothesis Hb : behaves (eb_blockquote E) (b_blockquote cfg) /\ behaves (eb_github_alert E) (b_github_alert cfg)
    /\ behaves (eb_heading_v1 E) (b_heading_v1 cfg) /\ behaves (eb_heading_v2 E) (b_heading_v2 cfg)
    /\ behaves (eb_thematic_break E) (b_thematic_break cfg) /\ behaves (eb_list E) (b_list cfg)
    /\ behaves (eb_code_block E) (b_code_block cfg) /\ behaves (eb_html_block E) (b_html_block cfg)
    /\ behaves (eb_footnote_definition E) (b_footnote_definition cfg) /\ behaves (eb_link_definition E) (b_link_definition cfg)
    /\ behaves (eb_table E) (b_table cfg) /\ behaves (eb_paragraph E) (b_paragraph cfg).
  Hypothesis Hi : behaves (ei_autolink E) (i_autolink cfg) /\ behaves (ei_link E) (i_link cfg)
    /\ behaves (ei_footnote_reference E) (i_footnote_reference cfg) /\ behaves (ei_reference_link E) (i_reference_link cfg)
    /\ behaves (ei_hard_newline E) (i_hard_newline cfg) /\ behaves (ei_image E) (i_image cfg)
    /\ behaves (ei_code_span E) (i_code_span cfg) /\ behaves (ei_emphasis E) (i_emphasis cfg)
    /\ behaves (ei_strikethrough E) (i_strikethrough cfg) /\ behaves (ei_text E) (i_text cfg).
  Hypothesis Hcb : customs (e_custom_block E) (custom_block cfg).
  Hypothesis Hci : customs (e_custom_inline E) (custom_inline cfg).

  Lemma sim_cond : forall A (b : ebehavior W A) c d p q, behaves b c -> esim eqv p q ->
    esim eqv (econditional b d p) (conditional c d q).
  Proof.
    intros A b c d p q H Hp. destruct b, c; cbn [behaves] in H; try contradiction; cbn [econditional conditional].
    - eapply sim_map; [exact Hp|]. intros. now apply (eqv_f _ _ (fun v => [v])).
    - apply sim_fail.
    - eapply sim_value; [exact Hp|]. apply eqv_refl.
    - intros s w. specialize (Hp s w). unfold emap, erun, ebind, pmap, bind, eret, lift, ret.
      destruct (p s w) as [[? ?| |] ?], (q s); cbn in *; try tauto. specialize (H a w0). destruct (f a w0) as [x w1]. cbn in *.
      destruct Hp as [-> Hp]. split; [reflexivity|]. unfold eqv in *. destruct exact; [|exact I]. congruence.
    - intros s w. specialize (Hp s w). unfold emap, erun, ebind, pmap, bind, eret, lift, ret.
      destruct (p s w) as [[? ?| |] ?], (q s); cbn in *; try tauto. specialize (H a w0). destruct (f a w0) as [x w1]. cbn in *.
      destruct Hp as [-> Hp]. split; [reflexivity|]. unfold eqv in *. destruct exact; [|exact I]. congruence.
    - intros s w. specialize (Hp s w). unfold erun, ebind, pmap, bind, ret.
      destruct (p s w) as [[? ?| |] ?], (q s); cbn in *; try tauto. specialize (H a w0). destruct (f a w0). cbn in *.
      destruct Hp as [-> Hp]. split; [reflexivity|]. unfold eqv in *. destruct exact; [|exact I]. congruence.
    - eapply sim_run; [exact Hp|]. intros a b w X. specialize (H a w). unfold eqv in *. destruct exact; congruence.
  Qed.
  Lemma sim_cond_unit : forall A (b : ebehavior W A) c p q, behaves b c -> esim eq p q ->
    esim eq (econditional_unit b p) (conditional_unit c q).
  Proof.
    intros A b c p q H Hp. destruct b, c; cbn [behaves] in H; try contradiction; cbn [econditional_unit conditional_unit];
      first [exact Hp|apply sim_fail].
  Qed.
  Lemma sim_cond_vec : forall (b : ebehavior W block) c p q, behaves b c -> esim eqv p q ->
    esim eqv (econditional_block_vec b p) (conditional_block_vec c q).
  Proof.
    intros b c p q H Hp. destruct b, c; cbn [behaves] in H; try contradiction; cbn [econditional_block_vec conditional_block_vec];
      try exact Hp; [apply sim_fail|]. eapply sim_value; [exact Hp|]. apply eqv_refl.
  Qed.
  Lemma sim_unit : forall A (R : A -> A -> Prop) (p : eparser W A) q, esim R p q -> esim eq (ep_unit p) (p_unit q).
  Proof. intros. eapply sim_value; [eassumption|]. reflexivity. Qed.
  Lemma sim_pure : forall A (p : parser A), @esim W A eqv (lift p) p.
  Proof. intros. apply sim_lift. intro. apply eqv_refl. Qed.
  Lemma sim_same : forall A (p : parser A), @esim W A eq (lift p) p.
  Proof. intros. apply sim_lift. reflexivity. Qed.
  Lemma sim_line : forall A (R : A -> A -> Prop) (p : eparser W A) q, esim R p q -> esim R (eline_terminated p) (line_terminated q).
  Proof. intros. eapply sim_terminated; [eassumption|apply sim_same]. Qed.

  Lemma entity_eq : p_html_entity (plain_config E) = p_html_entity cfg.
  Proof. unfold p_html_entity, p_entity_alpha. cbn. now rewrite Hent. Qed.
  Lemma open_eq : forall t, p_open_tag (plain_config E) t = p_open_tag cfg t.
  Proof. intros. unfold p_open_tag, can_open, is_punct. cbn. now rewrite Hpunct. Qed.
  Lemma close_eq : forall t, p_close_tag (plain_config E) t = p_close_tag cfg t.
  Proof. intros. unfold p_close_tag, can_close, is_punct. cbn. now rewrite Hpunct. Qed.
  Lemma alert_eq : forall m, parse_alert_marker (plain_config E) m = parse_alert_marker cfg m.
  Proof. intros. unfold parse_alert_marker, to_uppercase. cbn. now rewrite Hupper. Qed.

  Section Inl.
    Variables (er : eparser W (list inline)) (r : parser (list inline)).
    Hypothesis Hr : esim eqv er r.
    Lemma sim_label : esim eqv (ep_link_label er) (p_link_label r).
    Proof.
      eapply sim_delimited; [apply sim_same| |apply sim_same]. eapply sim_bind; [apply sim_same|]. intros a b ->. now apply sim_nested.
    Qed.
    Lemma sim_link : esim eqv (ep_inline_link er) (p_inline_link r).
    Proof.
      eapply sim_bind; [apply sim_label|]. intros a b H. eapply sim_bind; [apply sim_same|]. intros [d t] y <-.
      apply sim_ret. now apply eqv_f.
    Qed.
    Lemma sim_ref : esim eqv (ep_reference_link er) (p_reference_link r).
    Proof.
      apply sim_alt. repeat apply Forall2_cons; try apply Forall2_nil.
      - eapply sim_bind; [apply sim_label|]. intros a b H. eapply sim_bind; [apply sim_label|]. intros a' b' H'.
        apply sim_ret. now apply (eqv_f2 _ _ _ (fun x y => ILinkReference (LinkReference x y))).
      - eapply sim_map; [eapply sim_terminated; [apply sim_label|apply sim_same]|]. intros. now apply (eqv_f _ _ (fun x => ILinkReference (LinkReference x x))).
      - eapply sim_map; [apply sim_label|]. intros. now apply (eqv_f _ _ (fun x => ILinkReference (LinkReference x x))).
    Qed.
    Lemma sim_emph : forall t, esim eqv (ep_emph E er t) (p_emph cfg r t).
    Proof.
      intro t. unfold ep_emph. rewrite open_eq, close_eq. eapply sim_delimited; [apply sim_same| |apply sim_same].
      eapply sim_bind; [apply sim_same|]. intros a b ->. now apply sim_nested.
    Qed.
    Lemma sim_emphasis : esim eqv (ep_emphasis E er) (p_emphasis cfg r).
    Proof.
      apply sim_alt. repeat apply Forall2_cons; try apply Forall2_nil;
        (eapply sim_map; [apply sim_alt; repeat apply Forall2_cons; try apply Forall2_nil; apply sim_emph|]).
      - intros. now apply (eqv_f _ _ (fun x => IStrong [IEmphasis x])).
      - intros. now apply eqv_f.
      - intros. now apply eqv_f.
    Qed.
    Lemma sim_strike : esim eqv (ep_strikethrough er) (p_strikethrough r).
    Proof.
      eapply sim_bind; [apply sim_same|]. intros _ _ _. eapply sim_bind; [apply sim_same|]. intros a b ->.
      eapply sim_bind; [apply sim_same|]. intros _ _ _. eapply sim_map; [apply sim_nested, Hr|]. intros. now apply eqv_f.
    Qed.
    Lemma sim_not_text : esim eq (ep_not_a_text E er) (p_not_a_text cfg r).
    Proof.
      decompose [and] Hi. unfold ep_not_a_text. rewrite entity_eq.
      apply sim_alt. repeat apply Forall2_cons; try apply Forall2_nil;
        first [apply sim_same | apply sim_cond_unit; [assumption|]; first [apply sim_same|
          eapply sim_unit; first [apply sim_link|apply sim_ref|apply sim_emphasis|apply sim_strike]]].
    Qed.
    Lemma sim_text : esim eqv (ep_text E er) (p_text cfg r).
    Proof.
      eapply sim_map; [|intros a b H; exact (eqv_f _ _ (fun l => IText (concat l)) _ _ (eqv_list _ _ _ H))].
      apply sim_many1. rewrite entity_eq. apply sim_alt. repeat apply Forall2_cons; try apply Forall2_nil; try apply sim_pure.
      eapply sim_weaken; [|eapply sim_recognize, sim_many1, sim_preceded; [eapply sim_peek, sim_not, sim_not_text|apply sim_same]].
      intros a b ->. apply eqv_refl.
    Qed.
    Lemma sim_inline : esim eqv (ep_inline E er) (p_inline cfg r).
    Proof.
      decompose [and] Hi.
      apply sim_alt. repeat apply Forall2_cons; try apply Forall2_nil; try apply sim_pure;
        try (apply sim_cond; [assumption|]); try apply sim_pure.
      - eapply sim_map; [apply sim_link|]. intros. now apply eqv_f.
      - apply sim_ref.
      - apply sim_emphasis.
      - apply sim_strike.
      - unfold ep_custom_inline, p_custom_inline. unfold customs in Hci. destruct (e_custom_inline E), (custom_inline cfg); try contradiction; [exact Hci|apply sim_fail].
      - apply sim_text.
    Qed.
  End Inl.
  Lemma sim_flat : forall A B (f : list A -> B) a b, Forall2 eqv a b -> eqv (f (concat a)) (f (concat b)).
  Proof. intros. apply (eqv_f _ _ (fun x => f (concat x))). now apply eqv_list. Qed.
  Lemma sim_inlines_f : forall n, esim eqv (einline_many1_f E n) (inline_many1_f cfg n).
  Proof.
    induction n as [|n IH]; [intros s w; exact I|]. cbn [einline_many1_f inline_many1_f].
    eapply sim_map; [apply sim_many1, sim_inline, IH|]. intros a b H. exact (sim_flat _ _ _ _ _ H).
  Qed.
  Lemma sim_inlines1 : esim eqv (einline_many1 E) (inline_many1 cfg).
  Proof. intros s w. apply sim_inlines_f. Qed.
  Lemma sim_inlines0 : esim eqv (einline_many0 E) (inline_many0 cfg).
  Proof.
    intros s w. unfold einline_many0, inline_many0. eapply sim_map; [apply sim_many0, sim_inline, sim_inlines_f|]. intros a b H. exact (sim_flat _ _ _ _ _ H).
  Qed.

  Lemma sim_heading : esim eqv (ep_heading_v1 E) (p_heading_v1 cfg).
  Proof.
    unfold ep_heading_v1, p_heading_v1. eapply sim_bind; [apply sim_same|]. intros x ? <-. rewrite Hallow. eapply sim_bind; [apply sim_same|]. intros _ _ _.
    eapply sim_bind; [apply sim_same|]. intros a b ->. eapply sim_bind; [apply sim_nested, sim_inlines0|]. intros a c H.
    apply sim_ret. now apply eqv_f.
  Qed.
  Lemma sim_definition : esim eqv (ep_link_definition E) (p_link_definition cfg).
  Proof.
    eapply sim_bind; [eapply sim_preceded; [apply sim_same|apply sim_label, sim_inlines1]|]. intros l l' Hl.
    eapply sim_bind; [apply sim_same|]. intros _ _ _. eapply sim_bind; [apply sim_same|]. intros _ _ _.
    eapply sim_bind; [apply sim_same|]. intros d ? <-. eapply sim_bind; [apply sim_same|]. intros t ? <-.
    eapply sim_bind; [apply sim_same|]. intros _ _ _. apply sim_ret. now apply (eqv_f _ _ (fun x => LinkDefinition x d t)).
  Qed.
  Lemma sim_row : esim (Forall2 eqv) (ep_table_row E) (p_table_row cfg).
  Proof.
    apply sim_line. eapply sim_preceded; [apply sim_same|]. eapply sim_delimited; [apply sim_same| |apply sim_same].
    eapply sim_sep1; [apply sim_same|]. eapply sim_bind; [apply sim_same|]. intros a b ->. apply sim_nested, sim_inlines0.
  Qed.
  Lemma F2_len : forall A (R : A -> A -> Prop) l l', Forall2 R l l' -> List.length l = List.length l'.
  Proof. induction 1; cbn; congruence. Qed.
  Lemma sim_table : esim eqv (ep_table E) (p_table cfg).
  Proof.
    eapply sim_bind; [apply sim_row|]. intros h h' Hh. eapply sim_bind; [apply sim_same|]. intros a ? <-.
    rewrite (F2_len _ _ _ _ Hh). destruct (negb _); [apply sim_fail|].
    eapply sim_bind; [apply sim_many0; eapply sim_map with (Q := eqv); [apply sim_row|]|].
    - intros x y Hx. apply eqv_f. now apply eqv_list.
    - intros x y Hx. apply sim_ret. apply (eqv_f2 _ _ _ (fun u v => Table (u :: v) a)); now apply eqv_list.
  Qed.
  Lemma sim_custom : esim eqv (ep_custom_block E) (p_custom_block cfg).
  Proof.
    unfold ep_custom_block, p_custom_block. unfold customs in Hcb. destruct (e_custom_block E), (custom_block cfg); try contradiction; [exact Hcb|apply sim_fail].
  Qed.

  Section Blk.
    Variables (er : eparser W (list block)) (r : parser (list block)).
    Hypothesis Hr : esim eqv er r.
    Lemma sim_quote : esim eqv (ep_blockquote er) (p_blockquote r).
    Proof.
      eapply sim_bind; [apply sim_same|]. intros a ? <-. eapply sim_map; [apply sim_nested, sim_many1, Hr|].
      intros x y H. exact (sim_flat _ _ (fun z => z) _ _ H).
    Qed.
    Lemma sim_alert : esim eqv (ep_github_alert E er) (p_github_alert cfg r).
    Proof.
      eapply sim_bind; [apply sim_same|]. intros a ? <-. rewrite alert_eq. destruct (parse_alert_marker _ _) as [ty|]; [|apply sim_fail].
      eapply sim_bind; [apply sim_same|]. intros l ? <-. eapply sim_bind with (R := eqv).
      - destruct (join [c_nl] (tl l)) eqn:J; [apply sim_ret, eqv_refl|]. rewrite <- J. eapply sim_map; [apply sim_nested, sim_many1, Hr|].
        intros x y H. exact (sim_flat _ _ (fun z => z) _ _ H).
      - intros x y H. apply sim_ret. now apply (eqv_f _ _ (fun u => [BGitHubAlert (GitHubAlert ty u)])).
    Qed.
    Lemma sim_item : esim (fun x y => fst x = fst y /\ eqv (snd x) (snd y)) (ep_list_item er) (p_list_item r).
    Proof.
      eapply sim_bind; [apply sim_same|]. intros [[k t] c] ? <-.
      eapply sim_bind with (R := eqv); [eapply sim_map; [apply sim_nested, sim_many0, Hr|]; intros x y H; exact (sim_flat _ _ (fun z => z) _ _ H)|].
      intros x y H. apply sim_ret. split; [reflexivity|]. exact (eqv_f _ _ (ListItem t) _ _ H).
    Qed.
    Lemma sim_list : esim eqv (ep_list er) (p_list r).
    Proof.
      eapply sim_bind; [apply sim_many1, sim_item|]. intros a b H. destruct H as [|[k x] [k' y] l l' [Hk Hx] Hl]; [apply sim_fail|].
      cbn in Hk, Hx. subst k'. apply sim_ret. apply eqv_f. cbn [map snd]. apply eqv_f2; [exact Hx|].
      apply eqv_list. induction Hl as [|? ? ? ? [_ X] _ IH]; constructor; auto.
    Qed.
    Lemma sim_footnote : esim eqv (ep_footnote_definition er) (p_footnote_definition r).
    Proof.
      eapply sim_bind; [apply sim_same|]. intros [lb c] ? <-.
      eapply sim_bind with (R := eqv); [eapply sim_map; [apply sim_nested, sim_many0, Hr|]; intros x y H; exact (sim_flat _ _ (fun z => z) _ _ H)|].
      intros x y H. apply sim_ret. now apply eqv_f.
    Qed.
    Lemma sim_start : esim eq (ep_is_paragraph_line_start E er) (p_is_paragraph_line_start cfg r).
    Proof.
      decompose [and] Hb. eapply sim_peek, sim_not, sim_alt with (R := eq). repeat apply Forall2_cons; try apply Forall2_nil;
        first [apply sim_same | (eapply sim_unit; apply sim_custom) |
          apply sim_cond_unit; [assumption|]; first [apply sim_same|
          eapply sim_unit; first [apply sim_heading|apply sim_quote|apply sim_item|apply sim_definition|apply sim_footnote|apply sim_table]]].
    Qed.
    Lemma sim_paragraph : forall b, esim eqv (ep_paragraph E er b) (p_paragraph cfg r b).
    Proof.
      intro b. eapply sim_bind; [apply sim_same|]. intros a ? <-. eapply sim_bind.
      - apply sim_line. eapply sim_sep0 with (R := eq); [apply sim_same|]. eapply sim_preceded; [apply sim_start|apply sim_same].
      - intros x y H. assert (x = y) as -> by (induction H; congruence). apply sim_nested, sim_inlines1.
    Qed.
    Lemma sim_heading2 : esim eqv (ep_heading_v2_or_paragraph E er) (p_heading_v2_or_paragraph cfg r).
    Proof.
      eapply sim_bind; [apply sim_paragraph|]. intros a b H. eapply sim_bind; [apply sim_same|]. intros l ? <-.
      apply sim_ret. destruct l as [l|]; [now apply (eqv_f _ _ (fun c => BHeading (Heading (Setext l) c)))|now apply eqv_f].
    Qed.
    Lemma sim_block : esim eqv (ep_block E er) (p_block cfg r).
    Proof.
      decompose [and] Hb. eapply sim_preceded; [apply sim_same|].
      apply sim_alt. repeat apply Forall2_cons; try apply Forall2_nil;
        first [apply sim_custom | (apply sim_cond_vec; [assumption|]; apply sim_alert) | apply sim_cond; [assumption|]];
        first [apply sim_pure | apply sim_heading2 | idtac];
        match goal with |- esim _ _ (pmap ?f _) => eapply sim_map; [|intros x y X; exact (eqv_f _ _ f _ _ X)] end.
      - apply sim_heading.
      - apply sim_quote.
      - apply sim_list.
      - apply sim_footnote.
      - apply sim_definition.
      - apply sim_table.
      - apply sim_paragraph.
    Qed.
  End Blk.
  Lemma sim_block_f : forall n, esim eqv (eblock_f E n) (block_f cfg n).
  Proof. induction n as [|n IH]; [intros s w; exact I|]. apply sim_block, IH. Qed.
  Lemma sim_parse : forall s w, rrel eqv (fst (eparse_markdown E s w)) (parse_markdown cfg s).
  Proof.
    intros s w. unfold eparse_markdown, parse_markdown, ep_document, p_document.
    eapply sim_map; [eapply sim_terminated; [apply sim_many0, sim_block_f|apply sim_same]|].
    intros a b H. exact (sim_flat _ _ Document _ _ H).
  Qed.
End Sim.
