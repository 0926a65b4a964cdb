(** Exactness of the HTML block parsers. *)
From Coq Require Import String Lia.
From Verif Require Import SpecParser Nom NomFacts ParserLeaf ParserTotal ParserCode SpecInline SyntaxFacts SyntaxInline SyntaxInline2 ParserBlock ParserBlockFacts SpecBlock SyntaxLines SyntaxBlock.
Import ListNotations.
Open Scope list_scope.
Local Notation len := (@List.length _).

(** ** Text up to a stop *)
Definition before (stop : str -> Prop) (s l r : str) : Prop :=
  s = l ++ r /\ (r = [] \/ stop r) /\ forall a b, l = a ++ b -> b <> [] -> ~ stop (b ++ r).
Lemma before_until : forall (stop : str -> Prop) l r, stop r -> (before stop (l ++ r) l r <-> until stop l r).
Proof. intros stop l r H. unfold before, until. split; [intros (_ & _ & X); auto|intros [_ X]; auto]. Qed.
Lemma exact_p_until : forall A (e : parser A) R (stop : str -> Prop), exact e R -> (forall s, stop s <-> exists a r, R s a r) -> exact (p_until e) (before stop).
Proof.
  intros A e R stop H E. unfold p_until. eapply exact_iff; [eapply exact_many0; [eapply exact_until, H|eats]|]. intros s l r. cbv beta. unfold before.
  assert (D : forall s, stop s \/ ~ stop s).
  { intro x. rewrite E. apply (exact_dec _ _ H). }
  split.
  - induction 1 as [s N|s c m l r [-> X] L Y (-> & IH1 & IH2)].
    + split; [reflexivity|]. split.
      * destruct s as [|c s]; [now left|]. right. destruct (D (c :: s)) as [X|X]; [exact X|]. elim N. exists c, s. split; [reflexivity|]. intro K. apply X, E, K.
      * intros a b Q Nb. symmetry in Q. apply app_eq_nil in Q as [_ ->]. now elim Nb.
    + split; [reflexivity|]. split; [exact IH1|]. intros [|x a] b Q Nb.
      * cbn in Q. subst b. intro K. apply X, E, K.
      * injection Q as _ ->. now apply (IH2 a).
  - intros (-> & H1 & H2). induction l as [|c l IH].
    + apply many_stop. intros (c & r' & -> & N). destruct H1 as [H1|H1]; [discriminate|]. apply N, E, H1.
    + refine (many_step _ _ c _ _ _ _ _ (IH _)).
      * split; [reflexivity|]. intro K. apply (H2 [] (c :: l)); [reflexivity|discriminate|]. apply E, K.
      * cbn. lenlia.
      * intros a b -> Nb. now apply (H2 (c :: a)).
Qed.
Lemma exact_tag_no_case : forall t, exact (tag_no_case t) (fun s v r => s = v ++ r /\ map to_lower v = map to_lower t).
Proof.
  intro t. split.
  - intro s. unfold tag_no_case, tag_by. destruct (tag_go _ t s); discriminate.
  - intros s r v. unfold tag_no_case, tag_by. revert s v. induction t as [|x t IH]; intros s v.
    + cbn. split.
      * intro E. injection E as <- <-. auto.
      * intros (-> & E). destruct v; [reflexivity|discriminate].
    + destruct s as [|y s]; cbn [tag_go].
      * split; [discriminate|]. intros (E & M). symmetry in E. apply app_eq_nil in E as [-> ->]. discriminate.
      * destruct (N.eqb (to_lower x) (to_lower y)) eqn:Q.
        -- apply N.eqb_eq in Q. specialize (IH s). cbn [List.length firstn]. destruct (tag_go _ t s) as [r'|] eqn:G.
           ++ split.
              ** intro E. injection E as <- <-. destruct (proj1 (IH (firstn (len t) s)) eq_refl) as [E M]. split; [cbn; f_equal; exact E|]. cbn [map]. congruence.
              ** intros (E & M). destruct v as [|z v]; [discriminate|]. injection E as -> E. cbn [map] in M. injection M as _ M.
                 assert (K : Ok r' (firstn (len t) s) = Ok r v) by (apply IH; auto). injection K as -> ->. reflexivity.
           ++ split; [discriminate|]. intros (E & M). destruct v as [|z v]; [discriminate|]. injection E as -> E. cbn [map] in M. injection M as _ M.
              assert (K : Err = Ok r v) by (apply IH; auto). discriminate.
        -- apply N.eqb_neq in Q. split; [discriminate|]. intros (E & M). destruct v as [|z v]; [discriminate|]. injection E as -> E. cbn [map] in M. injection M as M _. congruence.
Qed.
Lemma exact_any_case : forall n, map to_lower n = n -> exact (tag_no_case n) (any_case n).
Proof. intros n H. eapply exact_iff; [apply exact_tag_no_case|]. intros s v r. unfold any_case. now rewrite H. Qed.
Lemma exact_names : forall names, names <> [] -> Forall (fun n => map to_lower n = n) names -> exact (alt (map tag_no_case names)) (first_of (map any_case names)).
Proof.
  induction names as [|n names IH]; intros N H; [now elim N|]. inversion H as [|? ? H1 H2]; subst. cbn [map first_of]. destruct names as [|n' names].
  - cbn [map alt]. eapply exact_iff; [apply exact_any_case, H1|]. intros s v r. cbn. split; [now left|]. intros [X|[_ []]]. exact X.
  - cbn [map]. change_alt. eapply exact_iff; [eapply exact_or; [apply exact_any_case, H1|apply IH; [discriminate|exact H2]]|]. intros s v r. reflexivity.
Qed.
Lemma first_of_case : forall names s v r, first_of (map any_case names) s v r -> s = v ++ r /\ In (map to_lower v) names.
Proof.
  induction names as [|n names IH]; intros s v r H; cbn in H; [destruct H|]. destruct H as [[-> <-]|[_ H]]; [split; [reflexivity|now left]|].
  apply IH in H as [-> H]. split; [reflexivity|now right].
Qed.
(** the three raw names: none is a prefix of another *)
Definition raw_variant := alt [tag_no_case (lit "script"); tag_no_case (lit "pre"); tag_no_case (lit "style")].
Lemma exact_raw : exact raw_variant (fun s t r => s = t ++ r /\ In (map to_lower t) raw_names).
Proof.
  eapply exact_iff; [apply (exact_names raw_names); [discriminate|repeat constructor]|]. intros s v r. split; [apply first_of_case|].
  intros (-> & H). assert (K : forall a b q, In a raw_names -> In b raw_names -> map to_lower (v ++ r) = a ++ q -> map to_lower v = b -> a = b).
  { intros a b q Ia Ib E Eb. rewrite map_app, Eb in E. cbn in Ia, Ib. destruct Ia as [<-|[<-|[<-|[]]]]; destruct Ib as [<-|[<-|[<-|[]]]]; try reflexivity; discriminate E. }
  assert (M : forall n, In n raw_names -> applies (any_case n) (v ++ r) -> map to_lower v = n).
  { intros n I (t & q & E & Et). symmetry. apply (K n (map to_lower v) (map to_lower q)); auto. rewrite E, map_app, Et. reflexivity. }
  unfold raw_names in H. cbn [map In] in H. unfold raw_names. cbn [map first_of].
  destruct H as [H|[H|[H|[]]]].
  - left. split; [reflexivity|now symmetry].
  - right. split; [intro X; apply M in X; [rewrite <- H in X; discriminate|cbn; auto]|]. left. split; [reflexivity|now symmetry].
  - right. split; [intro X; apply M in X; [rewrite <- H in X; discriminate|cbn; auto]|]. right. split; [intro X; apply M in X; [rewrite <- H in X; discriminate|cbn; auto]|].
    left. split; [reflexivity|now symmetry].
Qed.
Definition raw_close := delimited (Nom.tag (lit "</")) raw_variant (chr ">").
Lemma exact_raw_end : exact raw_close (fun s t r => s = lit "</" ++ t ++ ch ">" :: r /\ In (map to_lower t) raw_names).
Proof.
  unfold raw_close. eapply exact_iff; [eapply exact_delimited; [apply exact_tag|apply exact_raw|apply exact_char]|]. intros s t r. cbv beta. split.
  - intros (a & m1 & m2 & c & (-> & ->) & (-> & H) & -> & ->). auto.
  - intros (-> & H). exists (lit "</"), (t ++ ch ">" :: r), (ch ">" :: r), (ch ">"). auto.
Qed.
Lemma exact_html1 : exact (recognize (pair_ (chr "<") (pair_ raw_variant (pair_ (alt [p_unit (chr " "); p_unit (chr ">"); p_unit line_ending]) (pair_ (p_until raw_close) raw_close))))) html1.
Proof.
  eapply exact_iff.
  - eapply exact_recognize; [|unfold raw_close, raw_variant; eats].
    eapply exact_pair; [apply exact_char|]. eapply exact_pair; [apply exact_raw|]. eapply exact_pair; [ex|]. eapply exact_pair; [|apply exact_raw_end].
    apply (exact_p_until _ _ _ (fun y => exists r', raw_end y r') exact_raw_end). intro s. unfold raw_end. split; [intros (r' & t & H); eauto|intros (t & r' & H); eauto].
  - intros s v r. cbv beta. split.
    + intros (-> & (a & t & u & body & t') & m1 & (_ & E1) & m2 & (E2 & It) & m3 & X & m4 & (E4 & _ & U) & E5 & It'). cbn [fst snd] in *.
      assert (exists x, m2 = x ++ m3 /\ (x = lit " " \/ x = lit ">" \/ is_eol x)) as (x & E3 & Hx).
      { destruct X as [(c & -> & ->)|(_ & [(c & -> & ->)|(_ & e & H & ->)])]; [exists (lit " ")|exists (lit ">")|exists e]; auto. }
      set (e := lit "</" ++ t' ++ lit ">"). assert (E6 : m4 = e ++ r) by (unfold e; rewrite E5, <- !app_assoc; reflexivity).
      exists t, x, body, e. assert (Ev : v = ch "<" :: t ++ x ++ body ++ e).
      { apply (app_inv_tail r). rewrite E1, E2, E3, E4, E6. cbn [app]. now rewrite <- !app_assoc. }
      assert (RE : raw_end (e ++ r) r) by (exists t'; rewrite <- E6; auto).
      split; [exact Ev|]. split; [reflexivity|]. split; [exact It|]. split; [exact Hx|]. split; [exact RE|]. split; [eauto|]. rewrite <- E6. exact U.
    + intros (t & x & body & e & -> & -> & It & Hx & (t' & E & It') & U). split; [reflexivity|]. exists (ch "<", (t, (tt, (body, t')))). cbn [fst snd].
      exists (t ++ x ++ body ++ e ++ r). split; [split; [reflexivity|cbn [app]; now rewrite <- !app_assoc]|]. exists (x ++ body ++ e ++ r). split; [auto|]. exists (body ++ e ++ r). split.
      * destruct Hx as [->|[->|Hx]].
        -- left. exists (ch " "). auto.
        -- right. split; [intros (a & r' & c & -> & Q); discriminate|]. left. exists (ch ">"). auto.
        -- right. split; [intros (a & r' & c & -> & Q); destruct Hx as [->| ->]; discriminate|]. right. split; [intros (a & r' & c & -> & Q); destruct Hx as [->| ->]; discriminate|].
           exists x. auto.
      * exists (e ++ r). split; [|auto]. apply before_until; [exists r, t'; auto|exact U].
Qed.
Lemma exact_closed : forall open close, exact (recognize (pair_ (Nom.tag open) (pair_ (p_until (Nom.tag close)) (Nom.tag close)))) (closed open close).
Proof.
  intros open close. eapply exact_iff.
  - eapply exact_recognize; [|eats]. eapply exact_pair; [apply exact_tag|]. eapply exact_pair; [|apply exact_tag].
    apply (exact_p_until _ _ _ (fun x => exists y, x = close ++ y) (exact_tag close)). intro s. split; [intros (y & ->); eauto|intros (a & y & _ & ->); eauto].
  - intros s v r. cbv beta. unfold closed. split.
    + intros (-> & (a & body & c) & m1 & (Ea & E1) & m2 & (E2 & _ & U) & Ec & E3). cbn [fst snd] in *. exists body.
      split; [apply (app_inv_tail r); rewrite E1, E2, E3, <- !app_assoc; reflexivity|]. split; [reflexivity|]. subst m2. split; [eauto|exact U].
    + intros (body & -> & -> & U). split; [reflexivity|]. exists (open, (body, close)). cbn [fst snd]. exists (body ++ close ++ r). split; [split; [reflexivity|now rewrite <- !app_assoc]|].
      exists (close ++ r). split; [|auto]. apply before_until; [eauto|exact U].
Qed.
Lemma exact_html4 : exact (recognize (pair_ (Nom.tag (lit "<!")) (pair_ (satisfy is_upper) (pair_ (p_until (chr ">")) (Nom.tag (lit ">")))))) html4.
Proof.
  eapply exact_iff.
  - eapply exact_recognize; [|eats]. eapply exact_pair; [apply exact_tag|]. eapply exact_pair; [apply exact_satisfy|]. eapply exact_pair; [|apply exact_tag].
    apply (exact_p_until _ _ _ (fun x => exists y, x = lit ">" ++ y) (exact_char (ch ">"))). intro s. split; [intros (y & ->); exists (ch ">"), y; auto|intros (a & y & _ & ->); now exists y].
  - intros s v r. cbv beta. unfold html4, closed. split.
    + intros (-> & (a & c & body & d) & m1 & (Ea & E1) & m2 & (E2 & Hc) & m3 & (E3 & _ & U) & Ec & E4). cbn [fst snd] in *. exists c. split; [exact Hc|]. exists body.
      split; [apply (app_inv_tail r); rewrite E1, E2, E3, E4; cbn [app]; rewrite <- !app_assoc; reflexivity|]. split; [reflexivity|]. subst m3. split; [eauto|exact U].
    + intros (c & Hc & body & -> & -> & U). split; [reflexivity|]. exists (lit "<!", (c, (body, lit ">"))). cbn [fst snd]. exists (c :: body ++ lit ">" ++ r).
      split; [split; [reflexivity|cbn [app]; now rewrite <- !app_assoc]|]. exists (body ++ lit ">" ++ r). split; [auto|].
      exists (lit ">" ++ r). split; [|auto]. apply before_until; [eauto|exact U].
Qed.
(** ** Blocks that end at a blank line *)
Lemma space_is : forall c, (c = 32%N \/ c = 9%N) <-> is_space c = true.
Proof. intro c. unfold is_space. rewrite orb_true_iff, !N.eqb_eq. reflexivity. Qed.
Lemma eol_in : forall e, In e [[10%N]; [13%N; 10%N]] <-> is_eol e.
Proof. intro e. unfold is_eol. cbn. intuition. Qed.
Lemma all_space : forall w, Forall (fun c => c = 32%N \/ c = 9%N) w <-> all is_space w.
Proof. intro w. unfold all. rewrite !Forall_forall. split; intros H c I; apply space_is, H, I. Qed.
Lemma eol_stop : forall e r, is_eol e -> not_first is_space (e ++ r).
Proof. intros e r [->| ->]; now apply not_first_cons. Qed.
Definition end7 : parser unit := alt [p_unit (pair_ line_ending (pair_ space0 line_ending)); p_unit eof].
Definition end6 : parser unit := alt [p_unit (terminated line_ending (pair_ space0 line_ending)); p_unit eof].
Definition ends (s : str) (r : str) : Prop :=
  (exists e1 w e2, s = e1 ++ w ++ e2 ++ r /\ is_eol e1 /\ is_eol e2 /\ all is_space w) \/ (s = [] /\ r = []).
Lemma eol_cons : forall e r, is_eol e -> e ++ r <> []. Proof. intros e r [->| ->]; discriminate. Qed.
Lemma exact_end7 : exact end7 (fun s _ r => ends s r).
Proof.
  unfold end7. eapply exact_iff; [ex|]. intros s u r. cbv beta. unfold ends. split.
  - intros [((e1 & w & e2) & m1 & (H1 & E1) & m2 & (E2 & Hw & _) & H2 & E3)|(_ & v & -> & -> & _)]; [left|now right]. cbn [fst snd] in *. subst. eauto 8.
  - intros [(e1 & w & e2 & -> & H1 & H2 & Hw)|(-> & ->)].
    + left. exists (e1, (w, e2)). cbn [fst snd]. exists (w ++ e2 ++ r). split; [auto|]. exists (e2 ++ r). split; [|auto]. split; [reflexivity|]. split; [exact Hw|]. now apply eol_stop.
    + right. split; [|exists []; auto]. intros (u' & r' & x & m & (H & E) & _). symmetry in E. now apply eol_cons in E.
Qed.
Lemma exact_end6 : exact end6 (fun s _ r => ends s r).
Proof.
  unfold end6. eapply exact_iff; [ex|]. intros s u r. cbv beta. unfold ends. split.
  - intros [(e1 & m1 & [w e2] & (H1 & E1) & m2 & (E2 & Hw & _) & H2 & E3)|(_ & v & -> & -> & _)]; [left|now right]. cbn [fst snd] in *. subst. eauto 8.
  - intros [(e1 & w & e2 & -> & H1 & H2 & Hw)|(-> & ->)].
    + left. exists e1, (w ++ e2 ++ r), (w, e2). cbn [fst snd]. split; [auto|]. exists (e2 ++ r). split; [|auto]. split; [reflexivity|]. split; [exact Hw|]. now apply eol_stop.
    + right. split; [|exists []; auto]. intros (u' & r' & x & m & b & (H & E) & _). symmetry in E. now apply eol_cons in E.
Qed.
Lemma paragraph_ends : forall s, paragraph_end s <-> exists (a : unit) r, ends s r.
Proof.
  intro s. unfold paragraph_end, at_blank_line, ends. split.
  - intros [->|(e1 & w & e2 & r & -> & H1 & H2 & Hw)]; [exists tt, []; now right|]. exists tt, r. left. exists e1, w, e2. apply eol_in in H1, H2. apply all_space in Hw. auto.
  - intros (_ & r & [(e1 & w & e2 & -> & H1 & H2 & Hw)|(-> & ->)]); [right|now left]. exists e1, w, e2, r. apply eol_in in H1, H2. apply all_space in Hw. auto.
Qed.
Lemma exact_until7 : exact (p_until end7) (before paragraph_end).
Proof. apply (exact_p_until _ _ _ _ exact_end7), paragraph_ends. Qed.
Lemma exact_until6 : exact (p_until end6) (before paragraph_end).
Proof. apply (exact_p_until _ _ _ _ exact_end6), paragraph_ends. Qed.
Lemma exact_open6 : exact (alt [p_unit (Nom.tag (lit "</")); p_unit (chr "<")])
  (fun s _ r => exists o, s = o ++ r /\ In o [lit "<"; lit "</"] /\ (o = lit "<" -> ~ begins_with (ch "/") r)).
Proof.
  eapply exact_iff; [ex|]. intros s u r. cbv beta. split.
  - intros [(a & -> & ->)|(N & a & -> & ->)]; [exists (lit "</")|exists (lit "<")].
    + split; [reflexivity|]. split; [cbn; auto|discriminate].
    + split; [reflexivity|]. split; [cbn; auto|]. intros _ [t ->]. apply N. exists tt, t, (lit "</"). auto.
  - intros (o & -> & I & N). cbn [In] in I. destruct I as [<-|[<-|[]]].
    + right. split; [|eauto]. intros (u' & r' & a & -> & E). apply (N eq_refl). injection E as ->. now exists r'.
    + left. eauto.
Qed.
Lemma exact_sep6 : exact (alt [p_unit (chr " "); p_unit line_ending; p_unit (Nom.tag (lit "/>")); p_unit (chr ">")])
  (fun s _ r => exists x, s = x ++ r /\ (x = lit " " \/ x = lit "/>" \/ x = lit ">" \/ is_eol x)).
Proof.
  eapply exact_iff; [ex|]. intros s u r. cbv beta. split.
  - intros [(c & -> & ->)|(_ & [(e & H & ->)|(_ & [(c & -> & ->)|(_ & c & -> & ->)])])]; [exists (lit " ")|exists e|exists (lit "/>")|exists (lit ">")]; auto.
  - intros (x & -> & H). destruct H as [->|[->|[->|H]]].
    + left. eauto.
    + right. split; [intros (a & r' & c & -> & E); discriminate|]. right. split; [intros (a & r' & e & [->| ->] & E); discriminate|]. left. eauto.
    + right. split; [intros (a & r' & c & -> & E); discriminate|]. right. split; [intros (a & r' & e & [->| ->] & E); discriminate|]. right. split; [intros (a & r' & c & -> & E); discriminate|]. eauto.
    + right. split; [intros (a & r' & c & -> & E); destruct H as [->| ->]; discriminate|]. left. eauto.
Qed.
Lemma exact_html6 : exact (recognize (pair_ (alt [p_unit (Nom.tag (lit "</")); p_unit (chr "<")])
       (pair_ (alt (map tag_no_case html_block6_tags))
         (pair_ (alt [p_unit (chr " "); p_unit line_ending; p_unit (Nom.tag (lit "/>")); p_unit (chr ">")])
           (pair_ (p_until end6) (opt line_ending)))))) html6.
Proof.
  eapply exact_iff.
  - eapply exact_recognize.
    + eapply exact_pair; [apply exact_open6|]. eapply exact_pair; [apply (exact_names block_names); [discriminate|repeat constructor]|].
      eapply exact_pair; [apply exact_sep6|]. eapply exact_pair; [apply exact_until6|]. ex.
    + unfold end6. eats. apply Forall_map, Forall_forall. intros t _. apply eats_tag_any.
  - intros s v r. cbv beta. split.
    + intros (-> & (u & t & u' & body & e) & m1 & (o & E1 & Io & _) & m2 & F & m3 & (x & E3 & Hx) & m4 & (E4 & St & U) & He). cbn [fst snd] in *.
      destruct (first_of_case _ _ _ _ F) as [E2 _].
      assert (P : paragraph_end m4) by (destruct St as [->|St]; [now left|exact St]).
      assert (exists e', m4 = e' ++ r /\ (is_eol e' \/ e' = [] /\ r = [])) as (e' & E5 & He').
      { destruct e as [e|].
        - destruct He as [He ->]. eauto.
        - destruct He as [-> N]. exists []. split; [reflexivity|]. right. split; [reflexivity|]. destruct P as [P|(e1 & w & e2 & r2 & P & H1 & _)]; [exact P|].
          elim N. apply eol_in in H1. exists e1, (w ++ e2 ++ r2). auto. }
      exists o, t, x, body, e', m2. subst m4 m3.
      split; [apply (app_inv_tail r); rewrite E1, E2, E3, <- !app_assoc; reflexivity|]. split; [reflexivity|]. split; [exact Io|]. split; [exact E3|].
      split; [now rewrite <- E2|]. split; [exact Hx|]. split; [|exact He']. split; [exact P|exact U].
    + intros (o & t & x & body & e & m & -> & -> & Io & -> & F & Hx & [P U] & He). split; [reflexivity|]. destruct (first_of_case _ _ _ _ F) as [_ In1].
      exists (tt, (t, (tt, (body, match e with [] => None | _ => Some e end)))). cbn [fst snd]. rewrite <- !app_assoc.
      exists (t ++ x ++ body ++ e ++ r). split.
      * exists o. split; [reflexivity|]. split; [exact Io|]. intros -> [q Q]. destruct t as [|c t].
        -- cbn in In1. repeat match type of In1 with _ \/ _ => destruct In1 as [In1|In1]; [discriminate In1|] end; destruct In1.
        -- injection Q as -> _. cbn [map] in In1. change (to_lower (ch "/")) with (ch "/") in In1. cbn in In1. repeat match type of In1 with _ \/ _ => destruct In1 as [In1|In1]; [discriminate In1|] end; destruct In1.
      * exists (x ++ body ++ e ++ r). split; [exact F|]. exists (body ++ e ++ r). split; [eauto|]. exists (e ++ r). split; [split; [reflexivity|]; split; [now right|exact U]|].
        destruct He as [He|[-> ->]].
        -- destruct e as [|c e]; [destruct He; discriminate|]. auto.
        -- split; [reflexivity|]. intros (a & r' & H & E). symmetry in E. now apply eol_cons in E.
Qed.
(** ** Complete tags *)
Lemma longest_skip : forall f v m u r, all f v -> longest f (v ++ m) u r -> exists t, u = v ++ t /\ longest f m t r.
Proof.
  intros f v m u r. revert u. induction v as [|c v IH]; intros u Hv H; [exists u; auto|]. destruct H as (E & Hu & Hr). inversion Hv; subst. destruct u as [|x u].
  - cbn in E. subst r. specialize (Hr c (ex_intro _ (v ++ m) eq_refl)). congruence.
  - injection E as -> E. inversion Hu; subst. destruct (IH u) as (t & -> & T); [assumption|split; auto|]. exists t. auto.
Qed.
Lemma longest_app : forall f v m t r, all f v -> longest f m t r -> longest f (v ++ m) (v ++ t) r.
Proof. intros f v m t r Hv (-> & Ht & Hr). split; [now rewrite app_assoc|]. split; [apply all_app; auto|exact Hr]. Qed.
Lemma longest_fun : forall f s u r u' r', longest f s u r -> longest f s u' r' -> u = u' /\ r = r'.
Proof. intros f s u r u' r' H H'. apply (exact_fun _ _ (exact_take_while f) s); assumption. Qed.
Lemma longest_ex : forall f s, exists u r, longest f s u r.
Proof. intros f s. destruct (span f s) as [a b] eqn:E. apply span_iff in E. exists a, b. exact E. Qed.
Lemma class_units : forall A (f : char -> bool) (U : rule A),
  (forall s a r, U s a r -> exists v, v <> [] /\ s = v ++ r /\ all f v) ->
  (forall c s, f c = true -> exists a r, U (c :: s) a r) ->
  forall s r, (exists l, many_of U s l r) <-> exists t, longest f s t r.
Proof.
  intros A f U H1 H2 s r. split.
  - intros [l H]. induction H as [s N|s a m l r X L Y (t & T)].
    + exists []. split; [reflexivity|]. split; [constructor|]. intros c [t ->]. destruct (f c) eqn:F; [|reflexivity]. elim N. now apply H2.
    + apply H1 in X as (v & _ & -> & Hv). exists (v ++ t). now apply longest_app.
  - intros [t T]. remember (len s) as n eqn:En. assert (Ln : len s <= n) by lia. clear En. revert s t T Ln. induction n as [|n IH]; intros s t T Ln.
    + destruct s; [|cbn in Ln; lia]. destruct T as (E & _). symmetry in E. apply app_eq_nil in E as [-> ->]. exists []. apply many_stop. intros (a & r & X).
      apply H1 in X as (v & N & E & _). symmetry in E. now apply app_eq_nil in E as [-> _].
    + destruct t as [|c t].
      * destruct T as (E & _ & Hr). cbn in E. subst s. exists []. apply many_stop. intros (a & q & X). apply H1 in X as (v & N & E & Hv).
        destruct v as [|c v]; [now elim N|]. inversion Hv as [|? ? Hc ?]; subst. rewrite (Hr c (ex_intro _ (v ++ q) eq_refl)) in Hc. discriminate.
      * pose proof T as T'. destruct T' as (E & Ht & _). inversion Ht as [|? ? Hc ?]; subst. destruct (H2 c (t ++ r) Hc) as (a & m & X). pose proof X as X'.
        apply H1 in X' as (v & N & E & Hv). cbn [app] in T, Ln. rewrite E in T, Ln. destruct (longest_skip _ _ _ _ _ Hv T) as (t' & _ & T').
        destruct (IH m t' T') as [l Y]; [destruct v; [now elim N|]; lenlia|]. exists (a :: l). refine (many_step _ _ a _ _ _ X _ Y). rewrite E. destruct v; [now elim N|]. lenlia.
Qed.
Lemma alnum_tag : forall c, is_alnum c = true -> tag_char c = true. Proof. intros c H. unfold tag_char. now rewrite H. Qed.
Lemma alnum_attr : forall c, is_alnum c = true -> attr_char c = true. Proof. intros c H. unfold attr_char. now rewrite H. Qed.
Lemma alpha_alnum : forall c, is_alpha c = true -> is_alnum c = true. Proof. intros c H. unfold is_alnum. now rewrite H. Qed.
(** single characters of one class, or runs of another *)
Definition one_or_run (g h : char -> bool) : rule unit := fun s _ r => (exists c, s = c :: r /\ g c = true) \/
  ((~ exists c m, s = c :: m /\ g c = true) /\ exists v, v <> [] /\ longest h s v r).
Lemma exact_one_or_run : forall g h, exact (many0 (alt [p_unit (satisfy g); p_unit (take_while1 h)])) (many_of (one_or_run g h)).
Proof.
  intros g h. eapply exact_iff; [ex|]. apply many_of_ext. intros s [] r. cbv beta. unfold one_or_run. split.
  - intros [(c & H)|(N & v & H)]; [left; eauto|right]. split; [|exists v; exact H]. intros (c & m & K). apply N. exists tt, m, c. exact K.
  - intros [(c & H)|(N & v & H)]; [left; eauto|right]. split; [|exists v; exact H]. intros (u & m & c & K). apply N. eauto.
Qed.
Lemma one_or_run_longest : forall (g h f : char -> bool), (forall c, f c = g c || h c) ->
  forall s r, (exists l, many_of (one_or_run g h) s l r) <-> exists t, longest f s t r.
Proof.
  intros g h f Hf. apply class_units.
  - intros s' u r' [(c & -> & K)|(_ & v & N & E & K & _)].
    + exists [c]. split; [discriminate|]. split; [reflexivity|]. constructor; [|constructor]. now rewrite Hf, K.
    + exists v. split; [exact N|]. split; [exact E|]. revert K. apply Forall_impl. intros c K. now rewrite Hf, K, orb_true_r.
  - intros c s' K. rewrite Hf in K. exists tt. destruct (g c) eqn:G; [exists s'; left; eauto|]. cbn in K. destruct (longest_ex h (c :: s')) as (u & r' & L). exists r'. right. split.
    + intros (c' & m & Q & G'). injection Q as <- _. congruence.
    + exists u. split; [|exact L]. intros ->. destruct L as (Q & _ & L). cbn in Q. subst r'. specialize (L c (ex_intro _ s' eq_refl)). congruence.
Qed.
Lemma exact_tag_name : exact p_html_tag_name tag_name.
Proof.
  unfold p_html_tag_name. eapply exact_iff.
  - eapply exact_recognize; [|eats]. eapply exact_pair; [apply exact_take_while1|]. apply (exact_one_or_run (N.eqb (ch "-")) is_alnum).
  - intros s v r. cbv beta. unfold tag_name.
    assert (C : forall c, tag_char c = N.eqb (ch "-") c || is_alnum c) by (intro c; unfold tag_char; rewrite orb_comm, (N.eqb_sym c); reflexivity).
    split.
    + intros (-> & [a l] & m & (Na & E & Ha & _) & H). cbn [fst snd] in *. destruct (proj1 (one_or_run_longest _ _ _ C m r) (ex_intro _ l H)) as [t T].
      assert (Ha' : all tag_char a) by (revert Ha; apply Forall_impl; intros c K; apply alnum_tag, alpha_alnum, K).
      assert (v = a ++ t) as -> by (apply (app_inv_tail r); rewrite E; destruct T as (-> & _); now rewrite app_assoc).
      split; [rewrite E; now apply longest_app|]. destruct a as [|c a]; [now elim Na|]. exists c, (a ++ t). inversion Ha; subst. auto.
    + intros (L & c & t & -> & Hc). split; [apply L|]. destruct (longest_ex is_alpha s) as (a & m & La). pose proof La as (E & Ha & Hm).
      assert (Na : a <> []) by (intros ->; cbn in E; subst m; destruct L as (Q & _); specialize (Hm c (ex_intro _ (t ++ r) Q)); congruence).
      assert (Ha' : all tag_char a) by (revert Ha; apply Forall_impl; intros x K; apply alnum_tag, alpha_alnum, K).
      rewrite E in L. destruct (longest_skip _ _ _ _ _ Ha' L) as (t' & _ & T). destruct (proj2 (one_or_run_longest _ _ _ C m r) (ex_intro _ t' T)) as [l H].
      exists (a, l), m. cbn [fst snd]. rewrite E. split; [|exact H]. split; [exact Na|]. rewrite E in La. exact La.
Qed.
Lemma exact_attr_name : exact p_attr_name (fun s v r => s = v ++ r /\ attr_name s r).
Proof.
  unfold p_attr_name. eapply exact_iff.
  - eapply exact_recognize; [|eats]. eapply exact_pair; [ex|]. apply (exact_one_or_run (fun c => existsb (N.eqb c) (lit "_.:-")) is_alnum).
  - intros s v r. cbv beta. unfold attr_name.
    assert (C : forall c, attr_char c = existsb (N.eqb c) (lit "_.:-") || is_alnum c) by (intro c; unfold attr_char; now rewrite orb_comm).
    split.
    + intros (-> & [u l] & m & H1 & H2). cbn [fst snd] in *. split; [reflexivity|]. destruct (proj1 (one_or_run_longest _ _ _ C m r) (ex_intro _ l H2)) as [t T].
      assert (X : exists c a, v ++ r = c :: a ++ m /\ all attr_char (c :: a) /\ (is_alpha c = true \/ In c (lit "_:"))).
      { destruct H1 as [(a & Na & E & Ha & _)|(_ & c & E & I)].
        - destruct a as [|c a]; [now elim Na|]. exists c, a. split; [exact E|]. split; [revert Ha; apply Forall_impl; intros x K; apply alnum_attr, alpha_alnum, K|]. inversion Ha; auto.
        - exists c, []. split; [exact E|]. split; [|now right]. constructor; [|constructor]. cbn in I. destruct I as [<-|[<-|[]]]; reflexivity. }
      destruct X as (c & a & E & Ha & Hc). exists c, (a ++ t). split; [|exact Hc]. rewrite E. exact (longest_app _ (c :: a) _ _ _ Ha T).
    + intros (-> & c & t & L & Hc). split; [reflexivity|].
      assert (X : exists m a, v ++ r = a ++ m /\ all attr_char a /\ ((a <> [] /\ longest is_alpha (v ++ r) a m) \/ (a = [c] /\ is_alpha c = false /\ In c (lit "_:")))).
      { destruct (is_alpha c) eqn:Ec.
        - destruct (longest_ex is_alpha (v ++ r)) as (a & m & La). exists m, a. pose proof La as (E & Ha & Hm). split; [exact E|]. split; [revert Ha; apply Forall_impl; intros x K; apply alnum_attr, alpha_alnum, K|].
          left. split; [|exact La]. intros ->. cbn in E. rewrite <- E in Hm. destruct L as (Q & _). specialize (Hm c (ex_intro _ (t ++ r) Q)). congruence.
        - exists (t ++ r), [c]. split; [apply L|]. destruct Hc as [Hc|Hc]; [discriminate|]. split; [constructor; [destruct L as (_ & L & _); now inversion L|constructor]|]. now right. }
      destruct X as (m & a & E & Ha & X). rewrite E in L. destruct (longest_skip _ _ _ _ _ Ha L) as (t' & _ & T). destruct (proj2 (one_or_run_longest _ _ _ C m r) (ex_intro _ t' T)) as [l H].
      exists (tt, l), m. cbn [fst snd]. split; [|exact H]. destruct X as [[Na La]|(-> & Ec & I)].
      * left. exists a. split; [exact Na|exact La].
      * right. split; [|exists c; auto]. intros (u & q & a & Na & Q & Hq & _). rewrite E in Q. destruct a as [|y a]; [now elim Na|]. injection Q as <- _. inversion Hq; congruence.
Qed.
Lemma many_class : forall (f : char -> bool) s l r, many_of (fun s c r => s = c :: r /\ f c = true) s l r <-> longest f s l r.
Proof.
  intros f s l r. split.
  - induction 1 as [s N|s c m l r [-> F] L Y (-> & H1 & H2)].
    + split; [reflexivity|]. split; [constructor|]. intros c [t ->]. destruct (f c) eqn:F; [|reflexivity]. elim N. eauto.
    + split; [reflexivity|]. split; [now constructor|exact H2].
  - intros (-> & H1 & H2). induction H1 as [|c l Hc H IH].
    + apply many_stop. intros (c & q & -> & F). rewrite (H2 c (ex_intro _ q eq_refl)) in F. discriminate.
    + refine (many_step _ _ c _ _ _ _ _ IH); [auto|cbn; lenlia].
Qed.
Lemma exact_unquoted : exact p_attr_unquoted (fun s v r => v <> [] /\ longest value_char s v r).
Proof.
  unfold p_attr_unquoted.
  assert (X : exact (preceded (peek (not_ (alt [p_unit space1; p_unit (one_of (c_quote :: lit "'=<>`"))]))) anychar) (fun s c r => s = c :: r /\ value_char c = true)).
  { eapply exact_iff; [eapply exact_until; ex|]. intros s c r. cbv beta.
    assert (V : value_char c = true <-> is_space c = false /\ ~ In c (c_quote :: lit "'=<>`")).
    { unfold value_char. rewrite negb_true_iff, <- not_true_iff_false. rewrite existsb_In. unfold is_space. rewrite orb_false_iff, !N.eqb_neq.
      change (32%N :: 9%N :: 34%N :: lit "'=<>`") with (32%N :: 9%N :: c_quote :: lit "'=<>`"). split.
      - intro N. split; [split; intros ->; apply N; [now left|right; now left]|]. intro I. apply N. right. now right.
      - intros ((N1 & N2) & N3) [I|[I|I]]; auto. }
    split; intros [-> N]; (split; [reflexivity|]).
    - apply V. split.
      + destruct (is_space c) eqn:E; [|reflexivity]. elim N. destruct (longest_ex is_space (c :: r)) as (u & q & L). exists tt, q. left. exists u. split; [|exact L].
        intros ->. destruct L as (Q & _ & L). cbn in Q. subst q. specialize (L c (ex_intro _ r eq_refl)). congruence.
      + intro I. apply N. destruct (is_space c) eqn:E.
        * exfalso. unfold is_space in E. apply orb_true_iff in E. rewrite !N.eqb_eq in E. destruct E as [-> | ->]; cbn in I; repeat match type of I with _ \/ _ => destruct I as [I|I]; [discriminate I|] end; destruct I.
        * exists tt, r. right. split; [|eauto]. intros (u & q & v & Nv & Q & Hv & _). destruct v as [|x v]; [now elim Nv|]. injection Q as <- _. inversion Hv; congruence.
    - apply V in N as [E N]. intros (u & q & [(v & Nv & Q & Hv & _)|(_ & x & Q & I)]).
      + destruct v as [|x v]; [now elim Nv|]. injection Q as <- _. inversion Hv; congruence.
      + injection Q as <- _. now apply N. }
  eapply exact_iff; [eapply exact_recognize; [eapply exact_many1; [exact X|eats]|eats]|]. intros s v r. cbv beta. split.
  - intros (-> & l & N & H). apply many_class in H as H'. pose proof (proj1 H') as E. apply app_inv_tail in E as ->. auto.
  - intros (N & L). split; [apply L|]. exists v. split; [exact N|now apply many_class].
Qed.
Lemma exact_quoted1 : forall q, exact (recognize (delimited (char_ q) (preceded (peek (not_ (char_ q))) anychar) (char_ q))) (fun s v r => exists c, v = [q; c; q] /\ s = v ++ r /\ c <> q).
Proof.
  intro q. eapply exact_iff; [ex|]. intros s v r. cbv beta. split.
  - intros (E & c & a & m1 & m2 & b & (-> & E1) & (E2 & N) & -> & E3). exists c. subst m1 m2. rewrite E1 in E. assert (v = [q; c; q]) as -> by (apply (app_inv_tail r); now rewrite <- E).
    split; [reflexivity|]. split; [exact E1|]. intros ->. apply N. exists q, (q :: r). auto.
  - intros (c & -> & -> & N). split; [reflexivity|]. exists c, q, (c :: q :: r), (q :: r), q. split; [auto|]. split; [|auto]. split; [reflexivity|]. intros (a & b & -> & Q). injection Q as -> _. now elim N.
Qed.
Lemma exact_attr_value : exact p_attr_value (fun s v r => s = v ++ r /\ attr_value s r).
Proof.
  unfold p_attr_value, p_attr_single, p_attr_double, chr. eapply exact_iff; [change_alt; eapply exact_or; [apply exact_unquoted|change_alt; eapply exact_or; [apply exact_quoted1|unfold alt; apply exact_quoted1]]|].
  intros s v r. cbv beta. unfold attr_value. split.
  - intros [(N & L)|(_ & [(c & -> & -> & N)|(_ & c & -> & -> & N)])].
    + split; [apply L|]. left. eauto.
    + split; [reflexivity|]. right. exists (ch "'"), c. cbn [In app]. auto.
    + split; [reflexivity|]. right. exists 34%N, c. cbn [In app]. auto.
  - intros (E & [(u & N & L)|(q & c & I & -> & N)]).
    + left. assert (u = v) as -> by (destruct L as (Q & _); rewrite Q in E; now apply app_inv_tail in E). auto.
    + assert (v = [q; c; q]) as -> by (apply (app_inv_tail r); now rewrite <- E). right.
      assert (NL : forall a r', ~ (a <> [] /\ longest value_char (q :: c :: q :: r) a r')).
      { intros a r' (Na & Q & Ha & _). destruct a as [|x a]; [now elim Na|]. injection Q as <- _. inversion Ha as [|? ? K]; subst. cbn [In] in I. destruct I as [<-|[<-|[]]]; discriminate. }
      split; [intros (a & r' & X); exact (NL _ _ X)|]. cbn [In] in I. destruct I as [<-|[<-|[]]].
      * left. eauto.
      * right. split; [|eauto]. intros (a & r' & x & -> & Q & _). discriminate.
Qed.
Lemma attr_value_stop : forall s r, attr_value s r -> not_first is_space s.
Proof.
  intros s r [(v & N & E & H & _)|(q & c & I & -> & _)].
  - destruct v as [|x v]; [now elim N|]. subst s. cbn. apply not_first_cons. inversion H as [|? ? K]; subst. unfold value_char in K. rewrite negb_true_iff in K.
    destruct (is_space x) eqn:X; [|reflexivity]. exfalso. apply not_true_iff_false in K. apply K. apply existsb_In. unfold is_space in X. apply orb_true_iff in X. rewrite !N.eqb_eq in X. cbn. destruct X as [-> | ->]; auto.
  - apply not_first_cons. cbn [In] in I. destruct I as [<-|[<-|[]]]; reflexivity.
Qed.
Lemma exact_assigned : exact p_attr_value_spec (fun s v r => s = v ++ r /\ attr_assigned s r).
Proof.
  unfold p_attr_value_spec. eapply exact_iff.
  - eapply exact_recognize; [|eats]. eapply exact_pair; [ex|]. eapply exact_pair; [ex|]. eapply exact_pair; [ex|apply exact_attr_value].
  - intros s v r. cbv beta. unfold attr_assigned. split.
    + intros (-> & (w & c & w' & x) & m1 & (E1 & Hw & _) & m2 & (_ & E2) & m3 & (E3 & Hw' & _) & E4 & Hx). cbn [fst snd] in *. split; [reflexivity|]. subst m1 m2. eauto 8.
    + intros (-> & w & w' & m & E & Hw & Hw' & Hx). split; [reflexivity|]. assert (exists x, m = x ++ r) as (x & Ex).
      { destruct Hx as [(x & _ & Q & _)|(q & c & _ & Q & _)]; [eauto|exists [q; c; q]; exact Q]. }
      exists (w, (ch "=", (w', x))). cbn [fst snd]. exists (ch "=" :: w' ++ m). split; [split; [exact E|]; split; [exact Hw|now apply not_first_cons]|].
      exists (w' ++ m). split; [auto|]. exists m. split; [|auto]. split; [reflexivity|]. split; [exact Hw'|]. eapply attr_value_stop, Hx.
Qed.
Lemma attr_name_stop : forall s r, attr_name s r -> not_first is_space s.
Proof.
  intros s r (c & t & (-> & H & _) & _). cbn. apply not_first_cons. inversion H as [|? ? K]; subst. destruct (is_space c) eqn:X; [|reflexivity].
  unfold is_space in X. apply orb_true_iff in X. rewrite !N.eqb_eq in X. destruct X as [-> | ->]; discriminate.
Qed.
Lemma exact_attribute : exact p_html_tag_attribute attribute.
Proof.
  unfold p_html_tag_attribute. eapply exact_iff.
  - eapply exact_recognize; [|eats; [unfold p_attr_name|unfold p_attr_value_spec, p_attr_value, p_attr_unquoted, p_attr_single, p_attr_double]; eats]. eapply exact_pair; [ex|]. eapply exact_pair; [apply exact_attr_name|]. eapply exact_opt, exact_assigned.
  - intros s v r. cbv beta. unfold attribute. split.
    + intros (-> & (w & n & x) & m1 & (Nw & E1 & Hw & _) & m2 & (E2 & Hn) & H). cbn [fst snd] in *. split; [reflexivity|]. exists w, m1, m2. split; [exact E1|]. split; [exact Nw|]. split; [exact Hw|]. split; [exact Hn|].
      destruct x as [x|]; [left; apply H|right]. destruct H as [-> N]. split; [reflexivity|]. intros r' K. apply N. pose proof K as (w1 & w2 & q & Q & _ & _ & Hv).
      assert (exists x, q = x ++ r') as (x & Ex) by (destruct Hv as [(x & _ & Z & _)|(z & c & _ & Z & _)]; [eauto|exists [z; c; z]; exact Z]).
      exists (w1 ++ ch "=" :: w2 ++ x), r'. split; [|exact K]. rewrite Q, Ex. rewrite <- app_assoc. cbn [app]. now rewrite <- app_assoc.
    + intros (-> & w & m1 & m2 & E1 & Nw & Hw & Hn & H). split; [reflexivity|]. assert (exists n, m1 = n ++ m2) as (n & En) by (destruct Hn as (c & t & (Q & _) & _); eauto).
      assert (X : exists x : option str, match x with Some a => m2 = a ++ r /\ attr_assigned m2 r | None => m2 = r /\ ~ (exists a r', m2 = a ++ r' /\ attr_assigned m2 r') end).
      { destruct H as [K|[-> N]]; [|exists None; split; [reflexivity|]; intros (a & r' & _ & K); exact (N _ K)]. pose proof K as (w1 & w2 & q & Q & _ & _ & Hv).
        assert (exists x, q = x ++ r) as (x & Ex) by (destruct Hv as [(x & _ & Z & _)|(z & c & _ & Z & _)]; [eauto|exists [z; c; z]; exact Z]).
        exists (Some (w1 ++ ch "=" :: w2 ++ x)). split; [|exact K]. rewrite Q, Ex. rewrite <- app_assoc. cbn [app]. now rewrite <- app_assoc. }
      destruct X as [x X]. exists (w, (n, x)). cbn [fst snd]. exists m1. split; [split; [exact Nw|]; split; [exact E1|]; split; [exact Hw|eapply attr_name_stop, Hn]|].
      exists m2. auto.
Qed.
Lemma eats_attribute : eats true p_html_tag_attribute.
Proof. unfold p_html_tag_attribute, p_attr_name, p_attr_value_spec, p_attr_value, p_attr_unquoted, p_attr_single, p_attr_double. eats. Qed.
Lemma restricted_raw : forall n, negb (existsb (fun t => eq_ignore_case t n) (map lit ["script"; "pre"; "style"]%string)) = true <-> ~ In (map to_lower n) raw_names.
Proof.
  intro n. rewrite negb_true_iff, <- not_true_iff_false, existsb_exists. apply not_iff_compat. split.
  - intros (t & I & E). unfold eq_ignore_case in E. apply str_eqb_spec in E. rewrite <- E. unfold raw_names. apply in_map_iff in I as (x & <- & I). cbn [In] in I.
    destruct I as [<-|[<-|[<-|[]]]]; cbn; auto.
  - intro I. exists (map to_lower n). split; [exact I|]. unfold eq_ignore_case. apply str_eqb_spec. unfold raw_names in I. cbn [map In] in I.
    destruct I as [E|[E|[E|[]]]]; rewrite <- E; reflexivity.
Qed.
Lemma exact_open_tag : exact (p_open_html_tag (map lit ["script"; "pre"; "style"]%string)) (fun s v r => s = v ++ r /\ open_tag s r).
Proof.
  unfold p_open_html_tag. eapply exact_iff.
  - eapply exact_recognize; [|pose proof eats_attribute; set (q := p_html_tag_attribute) in *; unfold p_html_tag_name; eats].
    eapply exact_pair; [ex|]. eapply exact_pair; [eapply exact_verify, exact_tag_name|]. eapply exact_pair; [eapply exact_repeated; [apply exact_attribute|eapply eats_weaken, eats_attribute]|]. ex.
  - intros s v r. cbv beta. unfold open_tag. split.
    + intros (-> & (a & n & l & w & o & c) & m & (_ & E1) & m1 & (Hn & Nn) & m2 & Hl & m3 & (E3 & Hw & _) & m4 & Ho & _ & E4). cbn [fst snd] in *.
      split; [reflexivity|]. apply restricted_raw in Nn. exists m, n, m1, l, m2, w. destruct o as [x|].
      * destruct Ho as [_ Ho]. exists (lit "/"). subst. cbn [In]. auto 12.
      * destruct Ho as [Ho _]. exists []. subst. cbn [In]. auto 12.
    + intros (-> & m & n & m1 & l & m2 & w & c & E1 & Hn & Nn & Hl & -> & Hw & Ic). split; [reflexivity|]. apply restricted_raw in Nn.
      exists (ch "<", (n, (l, (w, (match c with [] => None | _ => Some (ch "/") end, ch ">"))))). cbn [fst snd]. exists m. split; [auto|]. exists m1. split; [auto|].
      eexists. split; [exact Hl|]. exists (c ++ ch ">" :: r). split.
      * split; [reflexivity|]. split; [exact Hw|]. cbn [In] in Ic. destruct Ic as [<-|[<-|[]]]; now apply not_first_cons.
      * exists (ch ">" :: r). split; [|auto]. cbn [In] in Ic. destruct Ic as [<-|[<-|[]]].
        -- split; [reflexivity|]. intros (a & q & -> & Q). discriminate.
        -- split; reflexivity.
Qed.
Lemma exact_close_tag : exact p_closing_html_tag (fun s v r => s = v ++ r /\ close_tag s r).
Proof.
  unfold p_closing_html_tag. eapply exact_iff.
  - eapply exact_recognize; [|unfold p_html_tag_name; eats]. eapply exact_pair; [ex|]. eapply exact_pair; [apply exact_tag_name|]. ex.
  - intros s v r. cbv beta. unfold close_tag. split.
    + intros (-> & (a & n & w & c) & m & (_ & E1) & m1 & Hn & m2 & (E2 & Hw & _) & _ & E3). cbn [fst snd] in *. split; [reflexivity|]. exists m, n, w. subst. auto.
    + intros (-> & m & n & w & E1 & Hn & Hw). split; [reflexivity|]. exists (lit "</", (n, (w, ch ">"))). cbn [fst snd]. exists m. split; [auto|]. eexists. split; [exact Hn|].
      exists (ch ">" :: r). split; [|auto]. split; [reflexivity|]. split; [exact Hw|now apply not_first_cons].
Qed.
Lemma open_not_close : forall s r r', open_tag s r -> ~ close_tag s r'.
Proof.
  intros s r r' (m & n & m1 & _ & _ & _ & _ & -> & Hn & _) (m' & n' & w & E & _). injection E as ->. destruct Hn as ((E & Hn & _) & c & t & -> & Hc). injection E as <- _. discriminate.
Qed.
Lemma exact_html7 : exact (recognize (pair_ (alt [p_open_html_tag (map lit ["script"; "pre"; "style"]%string); p_closing_html_tag])
       (pair_ (alt [p_unit line_ending; p_unit (chr " ")]) (pair_ (p_until end7) end7)))) html7.
Proof.
  eapply exact_iff.
  - eapply exact_recognize.
    + eapply exact_pair; [change_alt; eapply exact_or; [apply exact_open_tag|unfold alt; apply exact_close_tag]|]. eapply exact_pair; [ex|]. eapply exact_pair; [apply exact_until7|apply exact_end7].
    + pose proof eats_attribute; set (q := p_html_tag_attribute) in *; unfold p_open_html_tag, p_closing_html_tag, p_html_tag_name, end7; eats.
  - intros s v r. cbv beta. split.
    + intros (-> & (t & u & body & u') & m1 & Ht & m2 & Hx & m3 & (E3 & _ & U) & He). cbn [fst snd] in *.
      assert (Ht' : v ++ r = t ++ m1 /\ (open_tag (v ++ r) m1 \/ close_tag (v ++ r) m1)) by (destruct Ht as [[Q Ht]|[_ [Q Ht]]]; auto).
      destruct Ht' as [E1 Ht']. clear Ht. assert (exists x, m1 = x ++ m2 /\ (x = lit " " \/ is_eol x)) as (x & E2 & Hx').
      { destruct Hx as [(e & H & ->)|(_ & c & -> & ->)]; [eauto|exists (lit " "); auto]. }
      assert (exists e, m3 = e ++ r /\ ((exists e1 w e2, e = e1 ++ w ++ e2 /\ is_eol e1 /\ is_eol e2 /\ all is_space w) \/ e = [] /\ r = [])) as (e & E4 & He').
      { destruct He as [(e1 & w & e2 & -> & H)|(-> & ->)]; [|exists []; auto]. exists (e1 ++ w ++ e2). split; [now rewrite <- !app_assoc|]. left. eauto. }
      exists t, x, body, e. subst m1 m2 m3. split; [apply (app_inv_tail r); rewrite E1, <- !app_assoc; reflexivity|]. split; [reflexivity|]. split; [exact Ht'|]. split; [exact Hx'|].
      split; [|exact He']. split; [|exact U]. apply paragraph_ends. eauto.
    + intros (t & x & body & e & -> & -> & Ht & Hx & [P U] & He). split; [reflexivity|]. exists (t, (tt, (body, tt))). cbn [fst snd].
      exists (x ++ body ++ e ++ r). split.
      * destruct Ht as [Ht|Ht]; [left; split; [now rewrite <- !app_assoc|exact Ht]|]. right. split; [intros (a & r' & _ & K); exact (open_not_close _ _ _ K Ht)|]. split; [now rewrite <- !app_assoc|exact Ht].
      * exists (body ++ e ++ r). split.
        -- destruct Hx as [->|Hx]; [|left; eauto]. right. split; [|eauto]. intros (u & r' & a & [->| ->] & Q); discriminate.
        -- exists (e ++ r). split; [split; [reflexivity|]; split; [now right|exact U]|]. destruct He as [(e1 & w & e2 & -> & H)|[-> ->]]; [left|now right]. exists e1, w, e2. rewrite <- !app_assoc. auto.
Qed.
(** ** All kinds *)
Definition bracketed (R : rule str) : Prop := forall s v r, R s v r -> begins_with (ch "<") s.
Lemma html_indent : forall p R, exact p R -> bracketed R -> exact (preceded up_to_3_spaces p) (fun s v r => exists k m, s = rep k c_sp ++ m /\ k <= 3 /\ R m v r).
Proof. intros p R H B. apply exact_up3; [exact H|]. intros t a r X. apply B in X as [q Q]. discriminate. Qed.
Lemma html_alt : forall ps Rs, ps <> [] -> Forall2 (fun p R => exact p R /\ bracketed R) ps Rs ->
  exact (alt (map (preceded up_to_3_spaces) ps)) (fun s v r => exists k m, s = rep k c_sp ++ m /\ k <= 3 /\ first_of Rs m v r) /\ bracketed (first_of Rs).
Proof.
  intros ps Rs Nn H. induction H as [|p R ps Rs [H1 H2] H IH]; [now elim Nn|]. destruct ps as [|p' ps].
  - inversion H; subst. split.
    + cbn [map alt]. eapply exact_iff; [apply html_indent; eassumption|]. intros s v r. cbn. split; intros (k & m & E & L & X); exists k, m; (split; [exact E|]); (split; [exact L|]); [now left|destruct X as [X|[_ []]]; exact X].
    + intros s v r [X|[_ []]]. eapply H2, X.
  - destruct IH as [IH1 IH2]; [discriminate|]. split.
    + cbn [map]. change_alt. eapply exact_iff; [eapply exact_or; [apply html_indent; eassumption|exact IH1]|]. intros s v r. cbn [first_of]. split.
      * intros [(k & m & E & L & X)|(N & k & m & E & L & X)]; exists k, m; (split; [exact E|]); (split; [exact L|]); [now left|right]. split; [|exact X]. intros (a & r' & Y). apply N. exists a, r', k, m. auto.
      * intros (k & m & E & L & [X|[N X]]); [left; eauto|right]. split; [|eauto]. intros (a & r' & k' & m' & E' & _ & Y). apply N. exists a, r'.
        assert (m = m') as ->; [|exact Y]. rewrite E in E'. apply rep_inj in E'; [apply E'| |].
        -- apply IH2 in X as [q ->]. intros [z Q]. discriminate.
        -- apply H2 in Y as [q ->]. intros [z Q]. discriminate.
    + intros s v r [X|[_ X]]; [eapply H2, X|eapply IH2, X].
Qed.
Lemma closed_bracketed : forall open close, bracketed (closed (ch "<" :: open) close).
Proof. intros open close s v r (b & -> & -> & _). cbn [app]. eexists. reflexivity. Qed.
Lemma exact_html_block : exact p_html_block (fun s v r => r_html s (HHtml v) r).
Proof.
  eapply exact_iff.
  - apply (html_alt [_; _; _; _; _; _; _] [html1; closed (lit "<!--") (lit "-->"); closed (lit "<?") (lit "?>"); html4; closed (lit "<![CDATA[") (lit "]]>"); html6; html7]); [discriminate|].
    repeat apply Forall2_cons; try apply Forall2_nil; split; first [apply exact_html1|apply exact_closed|apply exact_html4|apply exact_html6|apply exact_html7|apply closed_bracketed|idtac].
    + intros s v r (t & x & b & e & -> & -> & _). cbn [app]. eexists. reflexivity.
    + intros s v r (c & _ & X). revert X. apply (closed_bracketed (lit "!" ++ [c])).
    + intros s v r (o & t & x & b & e & m & -> & -> & I & _). cbn [In] in I. destruct I as [<-|[<-|[]]]; cbn [app]; eexists; reflexivity.
    + intros s v r (t & x & b & e & _ & _ & [(m & n & q & _ & _ & _ & _ & -> & _)|(m & n & w & -> & _)] & _); cbn; eexists; reflexivity.
  - intros s v r. cbv beta. fold html_at. split.
    + intros (k & m & -> & L & H). now constructor.
    + intro H. inversion H; subst. eauto.
Qed.
