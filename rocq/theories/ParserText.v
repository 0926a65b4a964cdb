(** Plain text, escapes, character references and code spans at the level of
    the inline parser. *)
From Coq Require Import String.
From Verif Require Export ParserPlain.
Import ListNotations.
Open Scope list_scope.
Local Notation len := (@List.length _).

Lemma alert_custom : forall cfg w, identifier w ->
  (forall std t rest, In (std, t) standard_alerts -> map to_upper_ascii w <> std ++ rest) ->
  parse_alert_marker cfg (lit "[!" ++ w ++ lit "]") = Some (Custom (map to_upper_ascii w)).
Proof.
  intros cfg w Hid Hstd. apply alert_marker_exact. exists (map to_upper_ascii w).
  assert (A : Forall (fun c => is_ascii c = true) w).
  { assert (X : forall c, is_alnum c = true -> is_ascii c = true).
    { intros c. unfold is_alnum, is_alpha, is_upper, is_lower, is_digit, is_ascii. intros H. apply N.ltb_lt.
      rewrite !Bool.orb_true_iff, !Bool.andb_true_iff, !N.leb_le in H. unfold char in *. lia. }
    destruct Hid as (c & t & -> & Hc & Ht). constructor; [apply X; unfold is_alnum; now rewrite Hc|].
    eapply Forall_impl; [|exact Ht]. intros x [Hx| ->]; [now apply X|reflexivity]. }
  assert (Hid' : identifier (map to_upper_ascii w)).
  { assert (X : forall c, is_alpha c = true -> is_alpha (to_upper_ascii c) = true).
    { intros c. unfold is_alpha, to_upper_ascii, is_upper, is_lower. destruct ((97 <=? c)%N && (c <=? 122)%N) eqn:E; [|now rewrite E].
      intros _. apply Bool.andb_true_iff in E. rewrite !N.leb_le in E. rewrite Bool.orb_true_iff, !Bool.andb_true_iff, !N.leb_le. unfold char in *. lia. }
    destruct Hid as (c & t & -> & Hc & Ht). exists (to_upper_ascii c), (map to_upper_ascii t). split; [reflexivity|]. split; [now apply X|].
    apply Forall_map. eapply Forall_impl; [|exact Ht]. intros x [Hx| ->]; [left|now right].
    unfold is_alnum in *. apply Bool.orb_true_iff in Hx as [Hx|Hx]; [now rewrite (X _ Hx)|].
    unfold to_upper_ascii. replace (is_lower x) with false; [now rewrite Hx, Bool.orb_true_r|].
    symmetry. unfold is_lower, is_digit in *. apply Bool.andb_true_iff in Hx. rewrite !N.leb_le in Hx.
    apply Bool.andb_false_iff. left. apply N.leb_gt. unfold char in *. lia. }
  split.
  - replace (lit "[!" ++ w ++ lit "]") with ([] ++ (ch "[" :: (ch "!" :: w) ++ [ch "]"]) ++ []) by (cbn; now rewrite app_nil_r).
    rewrite trim_frame; try constructor. rewrite to_uppercase_ascii.
    + cbn [map app]. rewrite map_app. reflexivity.
    + cbn. repeat (apply Forall_cons1; [reflexivity|]). apply Forall_app. split; [exact A|]. now repeat constructor.
  - right. split; [exact Hid'|]. split; [reflexivity|]. intros std t rest Hin. now apply Hstd with (t := t).
Qed.

Section Text.
  Variable cfg : config.
  Hypothesis Htext : i_text cfg = Parse.
  Hypothesis Hcustom : custom_inline cfg = None.
  Hypothesis Hok : custom_ok cfg.
  Let rec := inline_many1 cfg.
  Let piece : parser str := alt [pmap (fun c => [c]) p_escaped_char; p_html_entity cfg; p_text_run cfg rec].
  Lemma piece_plain : forall s r, s <> [] -> plain_text s -> after_plain r ->
    (r = [] \/ exists r' x, p_not_a_text cfg rec r = Ok r' x) -> piece (s ++ r) = Ok r s.
  Proof.
    intros s r Hne Hp Hr Hst. unfold piece. cbn [alt]. unfold or_else. destruct s as [|c s]; [now elim Hne|]. cbn [app].
    assert (Hc : forall x, In x special_chars -> c <> x) by (intros x Hx ->; destruct Hp as [Hp _]; inversion Hp; subst; auto).
    rewrite (pmap_e _ _ _ _ _ (escaped_e c (s ++ r) (Hc (ch "\") ltac:(cbn; tauto)))).
    rewrite (entity_e cfg c (s ++ r) (Hc (ch "&") ltac:(cbn; tauto))).
    apply (plain_run cfg rec (c :: s) r); assumption.
  Qed.
  Lemma piece_nil : piece [] = Err. Proof. unfold piece. cbn [alt]. unfold or_else. cbn.
    unfold p_text_run, recognize, many1, bind, until, preceded, peek, not_, anychar, satisfy, bind.
    destruct (p_not_a_text cfg rec []) eqn:E; try reflexivity. exfalso. revert E.
    unfold p_not_a_text. rewrite alt_err; [discriminate|].
    repeat (apply Forall_cons1; [try (apply condu_e); apply unit_e; reflexivity|]). constructor.
  Qed.
  (** a sequence of pieces *)
  Inductive pieces : str -> str -> Prop :=
  | pc_nil : pieces [] []
  | pc_cons : forall s r a b, piece s = Ok r a -> pieces r b -> pieces s (a ++ b).
  Lemma piece_eats : eats true piece.
  Proof. unfold piece. eats. Qed.
  Lemma pieces_many : forall s t, pieces s t -> exists l, many0 piece s = Ok [] l /\ concat l = t.
  Proof.
    intros s t H. unfold many0. assert (X : len s < S (len s)) by lia. revert X. generalize (S (len s)). intro n. revert s t H.
    induction n as [|n IH]; intros s t H Hn; [lia|]. cbn [many0_go]. destruct H as [|s r a b E H].
    - rewrite piece_nil. now exists [].
    - rewrite E. pose proof (eats_lt _ _ _ _ _ piece_eats E) as L.
      destruct (Nat.eqb_spec (len r) (len s)) as [X|_]; [lia|]. destruct (IH r b H ltac:(lia)) as (l & -> & <-). exists (a :: l). now split.
  Qed.
  Lemma pieces_text : forall s t, s <> [] -> pieces s t -> p_text cfg rec s = Ok [] (IText t).
  Proof.
    intros s t Hne H. destruct H as [|s r a b E H]; [now elim Hne|]. unfold p_text, pmap, bind, ret.
    change (many1 (alt _)) with (many1 piece). unfold many1, bind, pmap, bind, ret. rewrite E.
    destruct (pieces_many r b H) as (l & -> & <-). reflexivity.
  Qed.
  Lemma one_inline : forall s x, p_inline cfg rec s = Ok [] [x] -> inline_many1 cfg s = Ok [] [x].
  Proof.
    intros s x E. rewrite inline_many1_unfold by exact Hok. unfold pmap, bind at 1, ret. unfold many1, bind. fold rec. rewrite E.
    unfold pmap, bind, ret, many0. cbn [List.length many0_go].
    assert (X : p_inline cfg rec [] = Err).
    { unfold p_inline, conditional_inline. apply alt_err.
      repeat (apply Forall_cons1; [try (apply cond_e); reflexivity|]).
      apply Forall_cons1; [unfold p_custom_inline; now rewrite Hcustom|]. apply Forall_cons1; [|constructor].
      apply cond_e. unfold p_text. apply pmap_e. unfold many1. apply bind_e. exact piece_nil. }
    rewrite X. cbn. destruct x; reflexivity.
  Qed.
  Lemma text_inline : forall s t, p_text cfg rec s = Ok [] (IText t) ->
    p_inline cfg rec s = conditional_inline (i_text cfg) (p_text cfg rec) s -> inline_many1 cfg s = Ok [] [IText t].
  Proof.
    intros s t E1 E2. apply one_inline. rewrite E2. unfold conditional_inline. rewrite Htext. cbn. unfold pmap, bind. now rewrite E1.
  Qed.
  Theorem plain_parses : forall s, s <> [] -> plain_text s -> inline_many1 cfg s = Ok [] [IText s].
  Proof.
    intros s Hne Hp. apply text_inline.
    - replace s with (s ++ []) at 1 by apply app_nil_r. replace (IText s) with (IText (s ++ [])) by now rewrite app_nil_r.
      apply pieces_text; [now rewrite app_nil_r|]. econstructor; [|constructor]. apply piece_plain; [exact Hne|exact Hp|exact I|now left].
    - destruct s as [|c s]; [now elim Hne|]. pose proof (plain_inline cfg rec c s [] Hp I Hcustom) as X. now rewrite app_nil_r in X.
  Qed.
  (** plain text, then a source piece [p] standing for [v] that begins with one
      of the special characters and is a text stopper, then plain text *)
  Lemma around : forall a p v b, plain_text a -> plain_text b -> p <> [] -> after_plain p ->
    (forall r, r = [] \/ plain_text r -> piece (p ++ r) = Ok r v) ->
    (forall r, r = [] \/ plain_text r -> exists r' x, p_not_a_text cfg rec (p ++ r) = Ok r' x) -> a <> [] ->
    inline_many1 cfg (a ++ p ++ b) = Ok [] [IText (a ++ v ++ b)].
  Proof.
    intros a p v b Ha Hb Hpn Hp Hpc Hst Hne. 
    assert (Hap : after_plain (p ++ b)) by (destruct p; [now elim Hpn|exact Hp]).
    assert (Pb : pieces b b).
    { destruct b as [|c b]; [constructor|]. rewrite <- (app_nil_r (c :: b)) at 2. econstructor; [|constructor].
      rewrite <- (app_nil_r (c :: b)) at 1. apply piece_plain; [discriminate|exact Hb|exact I|now left]. }
    assert (Pp : pieces (p ++ b) (v ++ b)) by (econstructor; [apply Hpc; now right|exact Pb]).
    apply text_inline.
    - apply pieces_text; [destruct a; [now elim Hne|discriminate]|]. econstructor; [|exact Pp].
      apply piece_plain; [exact Hne|exact Ha|exact Hap|right; apply Hst; now right].
    - destruct a as [|c a]; [now elim Hne|]. apply (plain_inline cfg rec c a (p ++ b)); assumption.
  Qed.
  Lemma amp_inline : forall s, p_inline cfg rec (ch "&" :: s) = conditional_inline (i_text cfg) (p_text cfg rec) (ch "&" :: s).
  Proof.
    intros s. apply skip_inline; try discriminate; try reflexivity; exact Hcustom.
  Qed.
  (** numeric character references *)
  Definition reference (digits : str) (v : N) : Prop :=
    (digits <> [] /\ Forall (fun c => is_digit c = true) digits /\ v = dec_value digits) \/
    (exists x ds, digits = x :: ds /\ (x = ch "x" \/ x = ch "X") /\ ds <> [] /\ Forall (fun c => is_hex c = true) ds /\ v = hex_value ds).
  Lemma entity_ref : forall ds v r, reference ds v -> is_scalar v = true ->
    p_html_entity cfg (lit "&#" ++ ds ++ lit ";" ++ r) = Ok r [v].
  Proof.
    intros ds v r Hd Hs. unfold p_html_entity. cbn [alt]. unfold or_else.
    assert (X : p_entity_alpha cfg (lit "&#" ++ ds ++ lit ";" ++ r) = Err) by reflexivity. rewrite X.
    destruct Hd as [(Hne & Hd & ->)|(x & ds' & -> & Hx & Hne & Hd & ->)].
    - rewrite entity_decimal by assumption. unfold numeric_result. now rewrite Hs.
    - cbn [app]. rewrite entity_hex by assumption. unfold numeric_result. now rewrite Hs.
  Qed.
  Theorem reference_decodes : forall a ds v b, plain_text a -> plain_text b -> reference ds v -> is_scalar v = true ->
    inline_many1 cfg (a ++ lit "&#" ++ ds ++ lit ";" ++ b) = Ok [] [IText (a ++ [v] ++ b)].
  Proof.
    intros a ds v b Ha Hb Hd Hs.
    assert (P : forall r, piece (lit "&#" ++ ds ++ lit ";" ++ r) = Ok r [v]).
    { intros r. unfold piece. cbn [alt]. unfold or_else.
      assert (X : pmap (fun c => [c]) p_escaped_char (lit "&#" ++ ds ++ lit ";" ++ r) = Err) by reflexivity. rewrite X.
      now rewrite (entity_ref ds v r Hd Hs). }
    assert (S : forall r, exists r' x, p_not_a_text cfg rec (lit "&#" ++ ds ++ lit ";" ++ r) = Ok r' x).
    { intros r. unfold p_not_a_text. set (s := lit "&#" ++ ds ++ lit ";" ++ r).
      match goal with |- context [alt [?p1; ?p2; ?p3; ?p4; ?p5; ?p6; ?p7; ?p8; ?p9; ?p10; ?p11]] =>
        assert (E1 : p1 s = Err) by (apply condu_e, unit_e, autolink_e; discriminate);
        assert (E2 : p2 s = Err) by (apply condu_e, unit_e, reflink_e; discriminate);
        assert (E3 : p3 s = Err) by (apply condu_e, unit_e, newline_e; discriminate);
        assert (E4 : p4 s = Ok r tt) by (rewrite Htext; unfold conditional_unit, p_unit, value, pmap, bind; unfold s; now rewrite (entity_ref ds v r Hd Hs)) end.
      cbn [alt]. unfold or_else. rewrite E1, E2, E3, E4. eauto. }
    destruct a as [|c a].
    - cbn [app]. apply text_inline.
      + apply pieces_text; [discriminate|]. change (v :: b) with ([v] ++ b). econstructor; [apply P|].
        destruct b as [|c b]; [constructor|]. rewrite <- (app_nil_r (c :: b)) at 2. econstructor; [|constructor].
        rewrite <- (app_nil_r (c :: b)) at 1. apply piece_plain; [discriminate|exact Hb|exact I|now left].
      + change (lit "&#" ++ ds ++ lit ";" ++ b) with (ch "&" :: (ch "#" :: ds ++ lit ";" ++ b)).
        apply amp_inline.
    - assert (A : forall r, (lit "&#" ++ ds ++ lit ";") ++ r = lit "&#" ++ ds ++ lit ";" ++ r) by (intro; now rewrite <- !app_assoc).
      rewrite <- A. apply around; try assumption; try discriminate.
      + cbn. tauto.
      + intros r _. rewrite A. apply P.
      + intros r _. rewrite A. apply S.
  Qed.
  (** text without any stopper *)
  Lemma quiet_run : forall s, s <> [] -> (forall a b, s = a ++ b -> b <> [] -> p_not_a_text cfg rec b = Err) ->
    p_text_run cfg rec s = Ok [] s.
  Proof.
    intros s Hne H. rewrite <- (app_nil_r s) at 1. unfold p_text_run. eapply recognize_ok with (x := s).
    apply (many1_until_ok _ (p_not_a_text cfg rec)); [exact Hne| |].
    - intros a b E Hb. rewrite app_nil_r. now apply (H a b).
    - left. split; [reflexivity|]. unfold p_not_a_text. apply alt_err.
      repeat (apply Forall_cons1; [try (apply condu_e); apply unit_e; reflexivity|]). constructor.
  Qed.
  Lemma entity_bad : forall ds v r, reference ds v -> is_scalar v = false ->
    p_html_entity cfg (lit "&#" ++ ds ++ lit ";" ++ r) = Err.
  Proof.
    intros ds v r Hd Hs. unfold p_html_entity. cbn [alt]. unfold or_else.
    assert (X : p_entity_alpha cfg (lit "&#" ++ ds ++ lit ";" ++ r) = Err) by reflexivity. rewrite X.
    destruct Hd as [(Hne & Hd & ->)|(x & ds' & -> & Hx & Hne & Hd & ->)].
    - rewrite entity_decimal by assumption. unfold numeric_result. now rewrite Hs.
    - cbn [app]. rewrite entity_hex by assumption. unfold numeric_result. now rewrite Hs.
  Qed.
  Lemma reference_plain : forall ds v b, reference ds v -> plain_text b -> plain_text (ch "#" :: ds ++ lit ";" ++ b).
  Proof.
    intros ds v b Hd [Hb1 Hb2].
    assert (P : forall c, is_hex c = true -> plain_char c).
    { intros c Hc Hin. cbn in Hin. repeat (destruct Hin as [<-|Hin]; [discriminate|]). exact Hin. }
    assert (DH : forall c, is_digit c = true -> is_hex c = true) by (intros c Hc; unfold is_hex; now rewrite Hc).
    assert (D : Forall plain_char ds /\ Forall (fun c => c <> 32%N) ds).
    { destruct Hd as [(_ & Hd & _)|(x & ds' & -> & Hx & _ & Hd & _)].
      - split; (eapply Forall_impl; [|exact Hd]); cbv beta; [intros c Hc; now apply P, DH|intros c Hc ->; discriminate].
      - split; constructor.
        + intros Hin. destruct Hx as [-> | ->]; cbn in Hin; repeat (destruct Hin as [Hin|Hin]; [discriminate Hin|]); exact Hin.
        + eapply Forall_impl; [|exact Hd]. exact P.
        + intros ->. destruct Hx; discriminate.
        + eapply Forall_impl; [|exact Hd]. cbv beta. intros c Hc ->. discriminate. }
    destruct D as [D1 D2]. split.
    - constructor; [intros Hin; cbn in Hin; repeat (destruct Hin as [Hin|Hin]; [discriminate Hin|]); exact Hin|].
      apply Forall_app. split; [exact D1|]. cbn. constructor; [|exact Hb1].
      intros Hin; cbn in Hin; repeat (destruct Hin as [Hin|Hin]; [discriminate Hin|]); exact Hin.
    - assert (G : forall l, Forall (fun c => c <> 32%N) l -> forall x y, l ++ b <> x ++ 32%N :: 32%N :: y).
      { induction l as [|c l IH]; intros Hl x y E; [now apply (Hb2 x y)|]. inversion Hl; subst.
        destruct x as [|d x]; cbn in E; injection E as -> E; [congruence|]. now apply (IH H2 x y). }
      intros x y E. apply (G (ch "#" :: ds ++ lit ";")) with (x := x) (y := y).
      + constructor; [discriminate|]. apply Forall_app. split; [exact D2|]. constructor; [discriminate|constructor].
      + cbn [app]. rewrite <- app_assoc. exact E.
  Qed.
  Lemma amp_not_text : forall s, p_html_entity cfg (ch "&" :: s) = Err -> p_not_a_text cfg rec (ch "&" :: s) = Err.
  Proof.
    intros s He. unfold p_not_a_text. apply alt_err.
    apply Forall_cons1; [apply condu_e, unit_e, autolink_e; discriminate|].
    apply Forall_cons1; [apply condu_e, unit_e, reflink_e; discriminate|].
    apply Forall_cons1; [apply condu_e, unit_e, newline_e; discriminate|].
    apply Forall_cons1; [apply condu_e, unit_e; exact He|].
    apply Forall_cons1; [apply condu_e, unit_e, image_e; left; discriminate|].
    apply Forall_cons1; [apply condu_e, unit_e, ilink_e; discriminate|].
    apply Forall_cons1; [apply condu_e, unit_e, code_e; discriminate|].
    apply Forall_cons1; [apply condu_e, unit_e, emphasis_e; discriminate|].
    apply Forall_cons1; [apply condu_e, unit_e, footref_e; discriminate|].
    apply Forall_cons1; [apply condu_e, unit_e, strike_e; discriminate|].
    apply Forall_cons1; [reflexivity|constructor].
  Qed.
  Theorem reference_kept : forall a ds v b, plain_text a -> plain_text b -> reference ds v -> is_scalar v = false ->
    inline_many1 cfg (a ++ lit "&#" ++ ds ++ lit ";" ++ b) = Ok [] [IText (a ++ lit "&#" ++ ds ++ lit ";" ++ b)].
  Proof.
    intros a ds v b Ha Hb Hd Hs. set (r := lit "&#" ++ ds ++ lit ";" ++ b).
    assert (He : p_html_entity cfg r = Err) by (now apply entity_bad with (v := v)).
    assert (Hr : r = ch "&" :: ch "#" :: ds ++ lit ";" ++ b) by reflexivity.
    pose proof (reference_plain ds v b Hd Hb) as Pr.
    assert (Q : forall x y, a ++ r = x ++ y -> y <> [] -> p_not_a_text cfg rec y = Err).
    { intros x y E Hy. apply app_eq_app in E as (t & [[-> ->]|[-> E]]).
      - destruct t as [|c t].
        + cbn [app]. rewrite Hr. apply amp_not_text. now rewrite <- Hr.
        + cbn [app]. apply plain_not_text; [now apply plain_suffix in Ha|]. rewrite Hr. cbn. tauto.
      - destruct t as [|c t].
        + cbn [app] in E. subst y. rewrite Hr. apply amp_not_text. now rewrite <- Hr.
        + rewrite Hr in E. injection E as _ E. destruct y as [|c' y]; [now elim Hy|].
          rewrite <- (app_nil_r y). apply plain_not_text; [|exact I]. change (plain_text (35%N :: ds ++ 59%N :: b)) in Pr. change (35%N :: ds ++ 59%N :: b = t ++ c' :: y) in E. rewrite E in Pr. now apply plain_suffix in Pr. }
    assert (N : a ++ r <> []) by (rewrite Hr; destruct a; discriminate).
    apply text_inline.
    - replace (IText (a ++ r)) with (IText ((a ++ r) ++ [])) by now rewrite app_nil_r. apply pieces_text; [exact N|].
      econstructor; [|constructor]. unfold piece. cbn [alt]. unfold or_else.
      assert (E : pmap (fun c => [c]) p_escaped_char (a ++ r) = Err /\ p_html_entity cfg (a ++ r) = Err).
      { destruct a as [|c a]; [cbn [app]; split; [now rewrite Hr|exact He]|]. cbn [app].
        assert (Hc : forall x, In x special_chars -> c <> x) by (intros x Hx ->; destruct Ha as [Ha _]; inversion Ha; subst; auto).
        split; [apply pmap_e, escaped_e; apply Hc; cbn; tauto|apply entity_e; apply Hc; cbn; tauto]. }
      destruct E as [-> ->]. now apply quiet_run.
    - destruct a as [|c a]; [cbn [app]; rewrite Hr; apply amp_inline|].
      cbn [app]. apply (plain_inline cfg rec c a r Ha); [rewrite Hr; cbn; tauto|exact Hcustom].
  Qed.
  (** escapes at the start of a text *)
  Theorem escape_start : forall c b, In c (lit "!""#$%&'()*+,-./:;<=>?@[\]^_`{|}~") -> plain_text b ->
    inline_many1 cfg (ch "\" :: c :: b) = Ok [] [IText (c :: b)].
  Proof.
    intros c b Hc Hb.
    assert (E : forall s, p_escaped_char (ch "\" :: c :: s) = Ok s c).
    { intros s. cbn in Hc. repeat (destruct Hc as [<-|Hc]; [reflexivity|]). now elim Hc. }
    assert (Hn : p_hard_newline (ch "\" :: c :: b) = Err).
    { cbn in Hc. repeat (destruct Hc as [<-|Hc]; [reflexivity|]). now elim Hc. }
    apply text_inline.
    - apply pieces_text; [discriminate|]. change (c :: b) with ([c] ++ b) at 2. econstructor.
      + unfold piece. cbn [alt]. unfold or_else, pmap, bind, ret. rewrite E. reflexivity.
      + destruct b as [|d b]; [constructor|]. rewrite <- (app_nil_r (d :: b)) at 2. econstructor; [|constructor].
        rewrite <- (app_nil_r (d :: b)) at 1. apply piece_plain; [discriminate|exact Hb|exact I|now left].
    - apply skip_inline; try discriminate; try reflexivity; [exact Hn|exact Hcustom].
  Qed.
End Text.

(** code spans *)
Theorem code_span_inline : forall cfg rec n raw r s content, i_code_span cfg = Parse ->
  code_span_source n raw r s -> code_content raw content -> p_inline cfg rec s = Ok r [ICode content].
Proof.
  intros cfg rec n raw r s content Hb Hs Hc.
  assert (E : p_code_span s = Ok r content) by (apply code_span_exact; eauto).
  assert (G : forall c t, c = 96%N -> p_code_span (c :: t) = Ok r content -> p_inline cfg rec (c :: t) = Ok r [ICode content]).
  { clear - Hb. intros c t Hc E.
    assert (N1 : c <> ch "<") by now subst. assert (N2 : c <> ch "[") by now subst. assert (N3 : c <> ch "!") by now subst.
    assert (N4 : p_hard_newline (c :: t) = Err) by (subst; reflexivity).
    unfold p_inline, conditional_inline. cbn [alt]. unfold or_else.
    rewrite (cond_e _ _ _ _ _ (pmap_e _ _ _ _ _ (autolink_e c t N1))).
    rewrite (cond_e _ _ _ _ _ (pmap_e _ _ _ _ _ (ilink_e rec c t N2))).
    rewrite (cond_e _ _ _ _ _ (footref_e c t N2)).
    rewrite (cond_e _ _ _ _ _ (reflink_e rec c t N2)).
    rewrite (cond_e _ _ _ _ _ N4).
    rewrite (cond_e _ _ _ _ _ (image_e c t (or_introl N3))).
    rewrite Hb. cbn [conditional]. unfold pmap, bind, ret. rewrite E. reflexivity. }
  destruct Hs as (-> & Hn & _). destruct n as [|n]; [lia|]. cbn [ticks repeat app] in *. now apply G.
Qed.
Theorem code_span_first : forall cfg n raw r s content, custom_ok cfg -> i_code_span cfg = Parse -> i_text cfg <> Ignore ->
  code_span_source n raw r s -> code_content raw content ->
  exists l, inline_many1 cfg s = Ok [] (ICode content :: l) /\ (r = [] -> l = []) /\
            (r <> [] -> inline_many1 cfg r = Ok [] l).
Proof.
  intros cfg n raw r s content Hok Hb Ht Hs Hc.
  pose proof (code_span_inline cfg (inline_many1 cfg) n raw r s content Hb Hs Hc) as E.
  rewrite inline_many1_unfold by exact Hok. unfold pmap at 1, bind at 1, ret. unfold many1, bind at 1. rewrite E.
  destruct r as [|c r].
  - destruct (inline_many0_all cfg Hok Ht []) as [l El]. rewrite inline_many0_unfold in El by exact Hok.
    unfold pmap, bind, ret in El. destruct (many0 _ []) as [r' ll| |] eqn:Em; try discriminate.
    assert (ll = []) as ->.
    { unfold many0 in Em. cbn [List.length many0_go] in Em. destruct (p_inline cfg (inline_many1 cfg) []) as [r2 x| |]; try congruence.
      destruct (_ =? _); try discriminate. }
    injection El as -> <-. unfold pmap, bind, ret. rewrite Em. exists []. cbn. repeat split; try congruence.
  - destruct (inline_many1_all cfg Hok Ht (c :: r) ltac:(discriminate)) as [l El].
    rewrite inline_many1_unfold in El by exact Hok. unfold pmap at 1, bind at 1, ret in El.
    assert (M : forall (p : parser (list inline)) s rr l, eats true p -> many1 p s = Ok rr l -> many0 p s = Ok rr l).
    { clear. intros p s rr l He E. unfold many1, bind in E. unfold many0. cbn [many0_go]. destruct (p s) as [r1 a| |] eqn:E1; try discriminate.
      pose proof (eats_lt _ _ _ _ _ He E1) as L. destruct (Nat.eqb_spec (len r1) (len s)) as [X|_]; [lia|].
      unfold pmap, bind, ret in E. destruct (many0 p r1) as [r2 l2| |] eqn:E2; try discriminate. injection E as <- <-.
      unfold many0 in E2.
      assert (G : forall n m s r l, len s < n -> len s < m -> many0_go n p s = Ok r l -> many0_go m p s = Ok r l).
      { clear - He. induction n as [|n IH]; intros [|m] s r l H1 H2; try lia. cbn [many0_go]. destruct (p s) as [r1 a| |] eqn:E; auto.
        pose proof (eats_lt _ _ _ _ _ He E) as L. destruct (_ =? _); auto. destruct (many0_go n p r1) as [r2 l2| |] eqn:E2; try discriminate.
        rewrite (IH m r1 r2 l2) by (assumption || lia). auto. }
      rewrite (G (S (len r1)) (len s) r1 r2 l2) by (assumption || lia). reflexivity. }
    destruct (many1 _ (c :: r)) as [r' ll| |] eqn:Em; try discriminate. injection El as -> <-.
    unfold pmap, bind, ret. rewrite (M _ _ _ _ (eats_inline cfg Hok _) Em).
    exists (merge_consecutive_text_elements (concat ll)). split; [reflexivity|]. split; [discriminate|]. intros _.
    rewrite inline_many1_unfold by exact Hok. unfold pmap, bind, ret. now rewrite Em.
Qed.
