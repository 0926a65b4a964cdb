(** Wrapping changes blanks in texts only, and keeps the fragment. *)
From Coq Require Import String Lia.
From Verif Require Import HtmlProps.
From Verif Require Export RoundLaid.
Import ListNotations.
Open Scope list_scope.
Local Notation len := (@List.length _).

(** ** Strings that differ in blanks only *)
Definition same (s s' : str) : Prop := unwrap_text s' = unwrap_text s.
Definition flat_blank (c : char) : char := if N.eqb c c_nl then c_sp else c.
Lemma same_refl : forall s, same s s. Proof. reflexivity. Qed.
Lemma same_sym : forall s t, same s t -> same t s. Proof. intros s t H. symmetry. exact H. Qed.
Lemma same_app : forall a a' b b', same a a' -> same b b' -> same (a ++ b) (a' ++ b').
Proof. intros a a' b b' H1 H2. unfold same in *. rewrite !unwrap_app. congruence. Qed.
Lemma same_len : forall s s', same s s' -> len s' = len s.
Proof. intros s s' H. unfold same, unwrap_text in H. apply (f_equal (@List.length char)) in H. now rewrite !map_length in H. Qed.
Lemma same_split : forall a b s', same (a ++ b) s' -> exists a' b', s' = a' ++ b' /\ same a a' /\ same b b'.
Proof. intros a b s' H. unfold same in *. rewrite unwrap_app in H. apply map_eq_app in H as (a' & b' & -> & H1 & H2). eauto. Qed.
Lemma same_cons : forall c b s', same (c :: b) s' -> exists c' b', s' = c' :: b' /\ flat_blank c' = flat_blank c /\ same b b'.
Proof. intros c b s' H. unfold same in *. destruct s' as [|c' b']; [discriminate|]. cbn in H. injection H as H1 H2. exists c', b'. auto. Qed.
Lemma same_put : forall c c' b b', flat_blank c' = flat_blank c -> same b b' -> same (c :: b) (c' :: b').
Proof. intros c c' b b' E H. unfold same, unwrap_text in *. cbn [map]. fold (flat_blank c') (flat_blank c). congruence. Qed.
Lemma flat_fixed : forall c c', c <> c_sp -> c <> c_nl -> flat_blank c' = flat_blank c -> c' = c.
Proof.
  intros c c' H1 H2 E. unfold flat_blank in E. destruct (N.eqb_spec c c_nl); [contradiction|]. destruct (N.eqb_spec c' c_nl); [congruence|exact E].
Qed.
Lemma flat_ws : forall c c', flat_blank c' = flat_blank c -> is_whitespace c' = is_whitespace c.
Proof.
  intros c c' E. unfold flat_blank in E. destruct (N.eqb_spec c c_nl) as [X|]; destruct (N.eqb_spec c' c_nl) as [Y|]; subst; reflexivity.
Qed.
Definition solid_char (c : char) : Prop := c <> c_sp /\ c <> c_nl.
Lemma same_fixed : forall u u', Forall solid_char u -> same u u' -> u' = u.
Proof.
  intros u u' F. revert u'. induction F as [|c u [H1 H2] F IH]; intros u' H.
  - destruct u'; [reflexivity|discriminate].
  - apply same_cons in H as (c' & b' & -> & E & H). f_equal; [now apply flat_fixed|now apply IH].
Qed.
Lemma same_in : forall c s s', solid_char c -> same s s' -> In c s' -> In c s.
Proof.
  intros c s s' [H1 H2] H I. apply in_split in I as (a & b & ->). apply same_sym, same_split in H as (a' & b' & -> & _ & H).
  apply same_cons in H as (c' & b2 & -> & E & _). apply flat_fixed in E; auto. subst. apply in_or_app. right. now left.
Qed.
Lemma same_begins : forall c s s', solid_char c -> same s s' -> begins_with c s' -> begins_with c s.
Proof. intros c s s' [H1 H2] H (t & ->). apply same_sym, same_cons in H as (c' & b & -> & E & _). apply flat_fixed in E; auto. subst. now exists b. Qed.
Lemma same_begins_any : forall c s s', same s s' -> begins_with c s' -> exists c', begins_with c' s /\ flat_blank c' = flat_blank c.
Proof. intros c s s' H (t & ->). apply same_sym, same_cons in H as (c' & b & -> & E & _). exists c'. split; [now exists b|exact E]. Qed.
Lemma same_sub : forall u s s', Forall solid_char u -> same s s' -> (forall a b, s <> a ++ u ++ b) -> forall a b, s' <> a ++ u ++ b.
Proof.
  intros u s s' F H N a b ->. apply same_sym, same_split in H as (a' & b' & -> & _ & H). apply same_split in H as (u' & b2 & -> & H & _).
  apply same_fixed in H; [|exact F]. subst. now apply (N a' b2).
Qed.
Lemma same_prefix : forall u s s', Forall solid_char u -> same s s' -> (forall b, s <> u ++ b) -> forall b, s' <> u ++ b.
Proof.
  intros u s s' F H N b ->. apply same_sym, same_split in H as (u' & b2 & -> & H & _).
  apply same_fixed in H; [|exact F]. subst. now apply (N b2).
Qed.
Lemma same_last : forall c s s', same s s' -> last_is c s' -> exists c', last_is c' s /\ flat_blank c' = flat_blank c.
Proof.
  intros c s s' H (t & ->). apply same_sym, same_split in H as (a & b & -> & _ & H). apply same_cons in H as (c' & b' & -> & E & H).
  destruct b'; [|discriminate]. exists c'. split; [now exists a|exact E].
Qed.
Lemma same_tight : forall s s', same s s' -> tight s -> tight s'.
Proof.
  intros s s' H [(c & t & -> & Hc) (u & d & E & Hd)]. split.
  - apply same_cons in H as (c' & b & -> & X & _). exists c', b. split; [reflexivity|]. now rewrite (flat_ws _ _ X).
  - rewrite E in H. apply same_split in H as (a & b & -> & _ & H). apply same_cons in H as (c' & b' & -> & X & H). destruct b'; [|discriminate].
    exists a, c'. split; [reflexivity|]. now rewrite (flat_ws _ _ X).
Qed.
Lemma same_close : forall s s', same s s' -> run_may_close s -> run_may_close s'.
Proof.
  intros s s' H R c B. apply (same_begins_any c s s' H) in B as (c' & B & E). apply R in B as [B|B].
  - left. rewrite <- (flat_ws c c' E). exact B.
  - destruct (is_whitespace c) eqn:W; [now left|right]. apply flat_fixed in E; [|intros ->; discriminate|intros ->; discriminate]. now subst.
Qed.
Lemma same_brackets : forall s s', same s s' -> in_brackets s -> in_brackets s'.
Proof.
  intros s s' H (H1 & H2 & H3 & H4). split; [now apply (same_tight s)|]. split; [|split].
  - intro I. apply H2. eapply same_in; [|exact H|exact I]. split; discriminate.
  - intro I. apply H3. eapply same_in; [|exact H|exact I]. split; discriminate.
  - now rewrite (same_len s).
Qed.
Lemma same_task : forall s s', same s s' -> ~ task_like s -> ~ task_like s'.
Proof.
  intros s s' H N (x & b & t & -> & Hb). apply N. apply same_sym in H.
  apply same_cons in H as (c1 & r1 & -> & E1 & H). apply same_cons in H as (c2 & r2 & -> & E2 & H). apply same_cons in H as (c3 & r3 & -> & E3 & H). apply same_cons in H as (c4 & r4 & -> & E4 & H).
  apply flat_fixed in E1; [|discriminate|discriminate]. apply flat_fixed in E3; [|discriminate|discriminate]. subst.
  exists c2, c4, r4. split; [reflexivity|]. now rewrite (flat_ws _ _ E4).
Qed.
Lemma same_tokens : forall s s', same s s' -> tokens s' = tokens s.
Proof. intros s s' H. rewrite <- (unwrap_tokens s), <- (unwrap_tokens s'). now rewrite H. Qed.
Lemma same_words : forall t t', same t t' -> plain_words t -> plain_words t'.
Proof.
  intros t t' H (H1 & H2 & H3 & H4). split; [|split; [|split]].
  - intros ->. destruct t; [congruence|discriminate].
  - rewrite Forall_forall in *. intros c I S. destruct (N.eq_dec c c_sp) as [->|N1]; [vm_compute in S; intuition discriminate|].
    destruct (N.eq_dec c c_nl) as [->|N2]; [vm_compute in S; intuition discriminate|]. apply (H2 c); [|exact S]. eapply same_in; [split; eassumption|exact H|exact I].
  - intros c I W. destruct (N.eq_dec c c_sp) as [->|N1]; [now left|]. destruct (N.eq_dec c c_nl) as [->|N2]; [now right|]. apply H3; [|exact W]. eapply same_in; [split; eassumption|exact H|exact I].
  - intros a b x y -> W. apply same_sym, same_split in H as (a' & b' & -> & _ & H). apply same_cons in H as (x' & r & -> & Ex & H). apply same_cons in H as (y' & r2 & -> & Ey & _).
    rewrite <- (flat_ws _ _ Ey). apply (H4 a' r2 x' y' eq_refl). now rewrite (flat_ws _ _ Ex).
Qed.

Section Wrap.
Variable udigit : char -> bool.
(** no line break before an unsafe word *)
Definition breaks_ok (t : str) : Prop := forall a b w l, t = a ++ c_nl :: b -> tokens b = Some w :: l -> unsafe udigit w = false.
Definition leaf (i : inline) : Prop :=
  match i with ILineBreak | ICode _ | IImage _ | IAutolink _ | IFootnoteReference _ => True | _ => False end.
Inductive rewrap : list inline -> list inline -> Prop :=
| rw_nil : rewrap [] []
| rw_text : forall t t' l l', same t t' -> breaks_ok t' -> rewrap l l' -> rewrap (IText t :: l) (IText t' :: l')
| rw_leaf : forall i l l', leaf i -> rewrap l l' -> rewrap (i :: l) (i :: l')
| rw_emphasis : forall c c' l l', rewrap c c' -> rewrap l l' -> rewrap (IEmphasis c :: l) (IEmphasis c' :: l')
| rw_strong : forall c c' l l', rewrap c c' -> rewrap l l' -> rewrap (IStrong c :: l) (IStrong c' :: l')
| rw_strike : forall c c' l l', rewrap c c' -> rewrap l l' -> rewrap (IStrikethrough c :: l) (IStrikethrough c' :: l')
| rw_link : forall d t c c' l l', rewrap c c' -> rewrap l l' -> rewrap (ILink (Link d t c) :: l) (ILink (Link d t c') :: l')
| rw_same : forall c c' l l', rewrap c c' -> rewrap l l' ->
    rewrap (ILinkReference (LinkReference c c) :: l) (ILinkReference (LinkReference c' c') :: l')
| rw_ref : forall n n' c c' l l', unwrap_inlines n <> unwrap_inlines c -> rewrap n n' -> rewrap c c' -> rewrap l l' ->
    rewrap (ILinkReference (LinkReference n c) :: l) (ILinkReference (LinkReference n' c') :: l').
Lemma rewrap_unwrap : forall l l', rewrap l l' -> unwrap_inlines l' = unwrap_inlines l.
Proof.
  induction 1 as [|t t' l l' H1 H2 H3 IH|i l l' H1 H2 IH|c c' l l' H1 IH1 H2 IH2|c c' l l' H1 IH1 H2 IH2|c c' l l' H1 IH1 H2 IH2|d t c c' l l' H1 IH1 H2 IH2|c c' l l' H1 IH1 H2 IH2|n n' c c' l l' N H1 IH1 H2 IH2 H3 IH3];
    unfold unwrap_inlines in *; cbn [map unwrap_inline]; try congruence.
Qed.
Lemma source_app : forall a b, source (a ++ b) = source a ++ source b. Proof. intros. apply flat_map_app. Qed.
Lemma source_cons : forall i l, source (i :: l) = source_of i ++ source l. Proof. reflexivity. Qed.
Lemma source_ref : forall n c, n <> c -> source_of (ILinkReference (LinkReference n c)) = lit "[" ++ source c ++ lit "][" ++ source n ++ lit "]".
Proof. intros n c H. cbn [source_of]. destruct (list_eqb inline_eqb n c) eqn:E; [apply label_eqb_eq in E; contradiction|reflexivity]. Qed.
Lemma source_same_ref : forall c, source_of (ILinkReference (LinkReference c c)) = lit "[" ++ source c ++ lit "]".
Proof. intros c. cbn [source_of]. replace (list_eqb inline_eqb c c) with true; [reflexivity|]. symmetry. now apply label_eqb_eq. Qed.
Lemma rewrap_source : forall l l', rewrap l l' -> same (source l) (source l').
Proof.
  induction 1 as [|t t' l l' H1 H2 H3 IH|i l l' H1 H2 IH|c c' l l' H1 IH1 H2 IH2|c c' l l' H1 IH1 H2 IH2|c c' l l' H1 IH1 H2 IH2|d t c c' l l' H1 IH1 H2 IH2|c c' l l' H1 IH1 H2 IH2|n n' c c' l l' N H1 IH1 H2 IH2 H3 IH3];
    rewrite ?source_cons; try reflexivity; (apply same_app; [|assumption]).
  - exact H1.
  - reflexivity.
  - cbn [source_of]. now repeat apply same_app.
  - cbn [source_of]. now repeat apply same_app.
  - cbn [source_of]. now repeat apply same_app.
  - cbn [source_of]. now repeat apply same_app.
  - rewrite !source_same_ref. now repeat apply same_app.
  - rewrite !source_ref; [now repeat apply same_app| |].
    + intros ->. apply rewrap_unwrap in H1. apply rewrap_unwrap in H2. congruence.
    + intros ->. congruence.
Qed.
Lemma rewrap_opens : forall l l', rewrap l l' -> opens_paragraph l -> opens_paragraph l'.
Proof.
  intros l l' H. destruct H as [|t t' l l' H1 H2 H3|i l l' H1 H2| | | | | |]; cbn; auto.
  intros (w & b & E & O). exists w, b. split; [|exact O]. rewrite <- E. now apply same_tokens.
Qed.
Lemma rewrap_rich : forall l, rich l -> forall l', rewrap l l' -> rich l'.
Proof.
  induction 1 as [|t l H1 H2 IH2 H3 H4 H5|l H1 IH1 H2|s l H1 H2 IH2 H3|c l H1 IH1 H2 H3 H4 H5 IH5 H6|c l H1 IH1 H2 H3 H4 IH4 H5|c l H1 IH1 H2 H3 H4 IH4 H5|c l H1 IH1 H2 H3 H4 IH4 H5
    |d t c l H1 IH1 H2 H3 H4 IH4|d t a l H1 H2 H3 H4 IH4|u l H1 H2 IH2|n l H1 H2 H3 IH3 H4|c l H1 IH1 H2 H3 H4 IH4 H5|n c l H1 IH1 H2 H3 IH3 H4 H5 H6 H7 IH7]; intros l' R;
    inversion R as [|t0 t' l0 l1 R1 R2 R3|i0 l0 l1 R1 R2|c0 c' l0 l1 R1 R2|c0 c' l0 l1 R1 R2|c0 c' l0 l1 R1 R2|d0 t0 c0 c' l0 l1 R1 R2|c0 c' l0 l1 R1 R2|n0 n' c0 c' l0 l1 RN R1 R2 R3]; subst; try contradiction; try congruence;
    repeat match goal with H : rewrap ?x ?y |- _ => lazymatch goal with H' : same (source x) (source y) |- _ => fail | _ => pose proof (rewrap_source _ _ H) end end.
  - constructor.
  - apply rich_text; auto.
    + now apply (same_words t).
    + intros t2 l2 ->. inversion R3; subst; [|contradiction]. eapply H3. reflexivity.
    + intros L B. destruct (same_last _ _ _ R1 L) as (c' & L' & E). 
      assert (c' = ch "!") as -> by (apply flat_fixed; [discriminate|discriminate|now symmetry]). apply (H4 L'). eapply same_begins; [split; discriminate| |exact B]. assumption.
    + intros c L W l2 ->. destruct (same_last _ _ _ R1 L) as (c' & L' & E). inversion R3; subst. eapply (H5 c' L'); [|reflexivity]. now rewrite (flat_ws _ _ E).
  - apply rich_break; auto. now apply (rewrap_opens l).
  - apply rich_code; auto. intro B. apply H3. eapply same_begins; [split; discriminate| |exact B]. assumption.
  - apply rich_emphasis; auto.
    + now apply (same_tight (source c)).
    + intro I. apply H3. eapply same_in; [| |exact I]; [split; discriminate|assumption].
    + now apply (same_task (source c)).
    + now apply (same_close (source l)).
  - apply rich_strong; auto.
    + now apply (same_tight (source c)).
    + eapply same_sub; [repeat constructor; discriminate| |exact H3]. now repeat apply same_app.
    + now apply (same_close (source l)).
  - inversion R1 as [| |i0 l0 l2 X1 X2|c0 c1 l0 l2 X1 X2| | | | |]; subst; [contradiction|]. inversion X2; subst. pose proof (rewrap_source _ _ X1). apply rich_both; auto.
    + now apply (same_tight (source c)).
    + intro I. apply H3. eapply same_in; [| |exact I]; [split; discriminate|assumption].
    + now apply (same_close (source l)).
  - apply rich_strike; auto.
    + now apply (same_tight (source c)).
    + intro I. apply H3. eapply same_in; [| |exact I]; [split; discriminate|assumption].
    + intro B. apply H5. eapply same_begins; [split; discriminate| |exact B]. assumption.
  - apply rich_link; auto. now apply (same_brackets (source c)).
  - apply rich_image; auto.
  - apply rich_autolink; auto.
  - apply rich_footnote; auto. intros c I B. apply (H4 c I). eapply same_begins; [| |exact B]; [|assumption]. cbn in I. destruct I as [<-|[<-|[]]]; split; discriminate.
  - apply rich_shortcut; auto.
    + now apply (same_brackets (source c)).
    + intro B. apply H3. eapply same_begins; [split; discriminate| |exact B]. assumption.
    + intros x I B. apply (H5 x I). eapply same_begins; [| |exact B]; [|assumption]. cbn in I. destruct I as [<-|[<-|[<-|[]]]]; split; discriminate.
  - apply rich_reference; auto.
    + now apply (same_brackets (source n)).
    + now apply (same_brackets (source c)).
    + intro B. apply H5. eapply same_begins; [split; discriminate| |exact B]. assumption.
    + rewrite (rewrap_unwrap _ _ R1), (rewrap_unwrap _ _ R2). exact H6.
Qed.

(** ** Layouts *)
Lemma laid_cat : forall a b o, laid None (at_ 0 (a ++ b)) o -> exists o1 o2, o = o1 ++ o2 /\ laid None (at_ 0 a) o1 /\ laid None (at_ 0 b) o2.
Proof.
  intros a [|p b] o L.
  - rewrite app_nil_r in L. exists o, []. rewrite app_nil_r. repeat split; [exact L|constructor].
  - unfold at_ in L. rewrite map_app in L. cbn [map] in L. apply laid_split in L as (oa & ob & -> & La & Lb). exists oa, ob. split; [reflexivity|]. split; [|exact Lb].
    apply laid_none; [apply at0_flat|exact La].
Qed.
Lemma laid_text : forall s b o, laid None (at_ 0 (Word s :: b)) o -> exists o2, o = s ++ o2 /\ laid None (at_ 0 b) o2.
Proof. intros s b o L. inversion L; subst. eauto. Qed.
Lemma laid_end : forall o, laid None (at_ 0 []) o -> o = [].
Proof. intros o L. now inversion L. Qed.
Lemma token_cons : forall c t, tokens (c :: t) = token_char c (tokens t). Proof. reflexivity. Qed.
Lemma flowing_laid : forall t o, (forall c, In c t -> is_whitespace c = true -> c = c_sp \/ c = c_nl) ->
  (forall a b x y, t = a ++ x :: y :: b -> is_whitespace x = true -> is_whitespace y = false) ->
  laid None (at_ 0 (flowing udigit (tokens t))) o -> same t o /\ breaks_ok o.
Proof.
  induction t as [|c t IH]; intros o H1 H2 L.
  - apply laid_end in L as ->. split; [reflexivity|]. intros a b w l E. destruct a; discriminate.
  - assert (IH' : forall o, laid None (at_ 0 (flowing udigit (tokens t))) o -> same t o /\ breaks_ok o).
    { intros o'. apply IH; [intros x I; apply H1; now right|]. intros a b x y E. apply (H2 (c :: a) b x y). now rewrite E. }
    clear IH. rewrite token_cons in L. unfold token_char in L. destruct (is_whitespace c) eqn:W.
    + assert (N : forall l, tokens t <> None :: l).
      { intros l E. destruct t as [|d t]; [discriminate|]. rewrite token_cons in E. unfold token_char in E.
        rewrite (H2 [] t c d eq_refl W) in E. destruct (tokens t) as [|[|]]; discriminate. }
      assert (L' : laid None (at_ 0 (flowing udigit (None :: tokens t))) o) by (destruct (tokens t) as [|[w|] l]; [exact L|exact L|destruct (N l eq_refl)]). clear L.
      assert (FC : flat_blank c_sp = flat_blank c /\ flat_blank c_nl = flat_blank c) by (destruct (H1 c) as [-> | ->]; [now left|exact W|now split|now split]).
      cbn [flowing at_ map] in L'.
      assert (SP : forall o1, laid None (at_ 0 (flowing udigit (tokens t))) o1 -> same (c :: t) (c_sp :: o1) /\ breaks_ok (c_sp :: o1)).
      { intros o1 L1. destruct (IH' o1 L1) as [S1 B1]. split; [apply same_put; [apply FC|exact S1]|].
        intros a b w l E T. destruct a as [|x a]; [discriminate|]. injection E as _ E. exact (B1 a b w l E T). }
      destruct (match tokens t with Some w :: _ => if unsafe udigit w then Word [c_sp] else Soft | _ => Soft end) as [s| | | |] eqn:P.
      * assert (s = [c_sp]) as -> by (destruct (tokens t) as [|[w|] l]; try discriminate; destruct (unsafe udigit w); congruence).
        inversion L' as [|? ? ? o1 L1 E1 E2| | | | |]; subst. now apply SP.
      * inversion L' as [| |? ? o1 L1 E1 E2|? ? o1 L1 E1 E2| | |]; subst; [now apply SP|].
        replace (break_to (next_indent None 0 (map (pair 0) (flowing udigit (tokens t))))) with [c_nl] by (rewrite next0; [reflexivity|apply at0_flat|reflexivity|now left]).
        destruct (IH' o1 L1) as [S1 B1]. split; [apply same_put; [apply FC|exact S1]|].
        intros a b w l E T. destruct a as [|x a]; cbn [app] in E; injection E as E; [|exact (B1 a b w l H T)]. subst b. rewrite (same_tokens t) in T by exact S1. rewrite T in P.
        destruct (unsafe udigit w); [discriminate|reflexivity].
      * exfalso. destruct (tokens t) as [|[w|] l]; try discriminate; destruct (unsafe udigit w); discriminate.
      * exfalso. destruct (tokens t) as [|[w|] l]; try discriminate; destruct (unsafe udigit w); discriminate.
      * exfalso. destruct (tokens t) as [|[w|] l]; try discriminate; destruct (unsafe udigit w); discriminate.
    + assert (X : exists o1, o = c :: o1 /\ laid None (at_ 0 (flowing udigit (tokens t))) o1).
      { destruct (tokens t) as [|[w|] l]; apply laid_text in L as (o2 & -> & L); eexists; (split; [reflexivity|]); [exact L| |exact L].
        now apply laid_word. }
      destruct X as (o1 & -> & L1). destruct (IH' o1 L1) as [S1 B1]. split.
      * now apply same_put.
      * intros a b w l E T. destruct a as [|x a]; injection E as E1 E2; [subst; discriminate|]. exact (B1 a b w l E2 T).
Qed.
Lemma inlines_cons : forall wrap i l, inlines_view udigit wrap (i :: l) = inline_view udigit wrap i ++ inlines_view udigit wrap l.
Proof. reflexivity. Qed.
Lemma laid_rewrap : forall l, rich l -> forall o, laid None (at_ 0 (inlines_view udigit true l)) o -> exists l', rewrap l l' /\ o = source l'.
Proof.
  induction 1 as [|t l H1 H2 IH2 H3 H4 H5|l H1 IH1 H2|s l H1 H2 IH2 H3|c l H1 IH1 H2 H3 H4 H5 IH5 H6|c l H1 IH1 H2 H3 H4 IH4 H5|c l H1 IH1 H2 H3 H4 IH4 H5|c l H1 IH1 H2 H3 H4 IH4 H5
    |d t c l H1 IH1 H2 H3 H4 IH4|d t a l H1 H2 H3 H4 IH4|u l H1 H2 IH2|n l H1 H2 H3 IH3 H4|c l H1 IH1 H2 H3 H4 IH4 H5|n c l H1 IH1 H2 H3 IH3 H4 H5 H6 H7 IH7]; intros o L; rewrite ?inlines_cons in L.
  - apply laid_end in L as ->. exists []. split; [constructor|reflexivity].
  - apply laid_cat in L as (o1 & o2 & -> & L1 & L2). apply IH2 in L2 as (l' & R & ->). cbn [inline_view] in L1. destruct H1 as (_ & _ & W1 & W2).
    apply flowing_laid in L1 as [S1 B1]; [|exact W1|exact W2]. exists (IText o1 :: l'). split; [now constructor|reflexivity].
  - cbn [inline_view app] in L. apply laid_text in L as (o2 & -> & L). apply IH1 in L as (l' & R & ->). exists (ILineBreak :: l'). split; [now apply rw_leaf|]. now rewrite source_cons.
  - cbn [inline_view app] in L. apply laid_text in L as (o2 & -> & L). apply laid_text in L as (o3 & -> & L). apply laid_text in L as (o4 & -> & L). apply IH2 in L as (l' & R & ->).
    exists (ICode s :: l'). split; [now apply rw_leaf|]. rewrite source_cons. cbn [source_of]. now rewrite <- !app_assoc.
  - cbn [inline_view] in L. rewrite <- !app_assoc in L. cbn [app] in L. apply laid_text in L as (o2 & -> & L). apply laid_cat in L as (o3 & o4 & -> & L3 & L). cbn [app] in L. apply laid_text in L as (o5 & -> & L).
    apply IH5 in L as (l' & R & ->). apply IH1 in L3 as (c' & R' & ->). exists (IEmphasis c' :: l'). split; [now constructor|]. rewrite source_cons. cbn [source_of]. now rewrite <- !app_assoc.
  - cbn [inline_view] in L. rewrite <- !app_assoc in L. cbn [app] in L. apply laid_text in L as (o2 & -> & L). apply laid_cat in L as (o3 & o4 & -> & L3 & L). cbn [app] in L. apply laid_text in L as (o5 & -> & L).
    apply IH4 in L as (l' & R & ->). apply IH1 in L3 as (c' & R' & ->). exists (IStrong c' :: l'). split; [now constructor|]. rewrite source_cons. cbn [source_of]. now rewrite <- !app_assoc.
  - cbn [inline_view flat_map] in L. rewrite <- !app_assoc in L. cbn [app] in L. apply laid_text in L as (o2 & -> & L). apply laid_text in L as (o2' & -> & L). apply laid_cat in L as (o3 & o4 & -> & L3 & L). cbn [app] in L. apply laid_text in L as (o5 & -> & L). apply laid_text in L as (o6 & -> & L).
    apply IH4 in L as (l' & R & ->). apply IH1 in L3 as (c' & R' & ->). exists (IStrong [IEmphasis c'] :: l'). split; [repeat constructor; assumption|]. rewrite source_cons. cbn [source_of flat_map]. rewrite <- !app_assoc. reflexivity.
  - cbn [inline_view] in L. rewrite <- !app_assoc in L. cbn [app] in L. apply laid_text in L as (o2 & -> & L). apply laid_cat in L as (o3 & o4 & -> & L3 & L). cbn [app] in L. apply laid_text in L as (o5 & -> & L).
    apply IH4 in L as (l' & R & ->). apply IH1 in L3 as (c' & R' & ->). exists (IStrikethrough c' :: l'). split; [now constructor|]. rewrite source_cons. cbn [source_of]. now rewrite <- !app_assoc.
  - cbn [inline_view] in L. rewrite <- !app_assoc in L. cbn [app] in L. apply laid_text in L as (o2 & -> & L). apply laid_cat in L as (o3 & o4 & -> & L3 & L). cbn [app] in L. apply laid_text in L as (o5 & -> & L).
    apply laid_text in L as (o6 & -> & L). apply laid_cat in L as (o7 & o8 & -> & L7 & L). cbn [app] in L. apply laid_text in L as (o9 & -> & L).
    apply IH4 in L as (l' & R & ->). apply IH1 in L3 as (c' & R' & ->). exists (ILink (Link d t c') :: l'). split; [now constructor|]. rewrite source_cons. cbn [source_of].
    assert (E : o7 = title_source t).
    { destruct t as [t|]; [|now apply laid_end in L7]. apply laid_text in L7 as (x & -> & L7). apply laid_text in L7 as (y & -> & L7). apply laid_text in L7 as (z & -> & L7). apply laid_end in L7 as ->. reflexivity. }
    subst o7. rewrite <- !app_assoc. reflexivity.
  - cbn [inline_view app] in L. apply laid_text in L as (o1 & -> & L). apply laid_text in L as (o2 & -> & L). apply laid_text in L as (o3 & -> & L). apply laid_text in L as (o4 & -> & L). apply laid_text in L as (o5 & -> & L). apply laid_text in L as (o6 & -> & L).
    apply IH4 in L as (l' & R & ->). exists (IImage (Image d t a) :: l'). split; [now apply rw_leaf|]. rewrite source_cons. cbn [source_of]. now rewrite <- !app_assoc.
  - cbn [inline_view app] in L. apply laid_text in L as (o2 & -> & L). apply IH2 in L as (l' & R & ->). exists (IAutolink u :: l'). split; [now apply rw_leaf|reflexivity].
  - cbn [inline_view app] in L. apply laid_text in L as (o2 & -> & L). apply IH3 in L as (l' & R & ->). exists (IFootnoteReference n :: l'). split; [now apply rw_leaf|reflexivity].
  - cbn [inline_view] in L. replace (list_eqb inline_eqb c c) with true in L by (symmetry; now apply label_eqb_eq).
    rewrite <- !app_assoc in L. cbn [app] in L. apply laid_text in L as (o2 & -> & L). apply laid_cat in L as (o3 & o4 & -> & L3 & L). cbn [app] in L. apply laid_text in L as (o5 & -> & L).
    apply IH4 in L as (l' & R & ->). apply IH1 in L3 as (c' & R' & ->). exists (ILinkReference (LinkReference c' c') :: l'). split; [now constructor|]. rewrite source_cons, source_same_ref. now rewrite <- !app_assoc.
  - cbn [inline_view] in L. destruct (list_eqb inline_eqb n c) eqn:E; [apply label_eqb_eq in E; congruence|].
    rewrite <- !app_assoc in L. cbn [app] in L. apply laid_text in L as (o2 & -> & L). apply laid_cat in L as (o3 & o4 & -> & L3 & L). cbn [app] in L. apply laid_text in L as (o5 & -> & L). apply laid_cat in L as (o6 & o7 & -> & L6 & L). cbn [app] in L. apply laid_text in L as (o8 & -> & L).
    apply IH7 in L as (l' & R & ->). apply IH1 in L6 as (n' & Rn & ->). apply IH3 in L3 as (c' & Rc & ->). exists (ILinkReference (LinkReference n' c') :: l'). split; [now constructor|].
    rewrite source_cons, source_ref; [now rewrite <- !app_assoc|]. intros ->. apply H6. rewrite <- (rewrap_unwrap _ _ Rn). exact (rewrap_unwrap _ _ Rc).
Qed.
(** the texts of the result *)
Lemma rewrap_breaks : forall l l', rewrap l l' -> forall t, In (IText t) (flat_map inline_preorder l') -> breaks_ok t.
Proof.
  induction 1 as [|t t' l l' H1 H2 H3 IH|i l l' H1 H2 IH|c c' l l' H1 IH1 H2 IH2|c c' l l' H1 IH1 H2 IH2|c c' l l' H1 IH1 H2 IH2|d t c c' l l' H1 IH1 H2 IH2|c c' l l' H1 IH1 H2 IH2|n n' c c' l l' N H1 IH1 H2 IH2 H3 IH3];
    intros x I; cbn [flat_map inline_preorder link_children lr_label lr_text] in I; try contradiction.
  - destruct I as [I|I]; [injection I as ->; exact H2|]. cbn in I. auto.
  - apply in_app_or in I as [I|I]; [|auto]. destruct i; cbn in I; try contradiction; destruct I as [I|[]]; discriminate.
  - destruct I as [I|I]; [discriminate|]. apply in_app_or in I as [I|I]; auto.
  - destruct I as [I|I]; [discriminate|]. apply in_app_or in I as [I|I]; auto.
  - destruct I as [I|I]; [discriminate|]. apply in_app_or in I as [I|I]; auto.
  - destruct I as [I|I]; [discriminate|]. apply in_app_or in I as [I|I]; auto.
  - destruct I as [I|I]; [discriminate|]. apply in_app_or in I as [I|I]; auto. apply in_app_or in I as [I|I]; auto.
  - destruct I as [I|I]; [discriminate|]. apply in_app_or in I as [I|I]; auto. apply in_app_or in I as [I|I]; auto.
Qed.
Lemma rewrap_wraps : forall l l', rewrap l l' -> wrappable udigit l -> wrappable udigit l'.
Proof.
  unfold wrappable.
  induction 1 as [|t t' l l' H1 H2 H3 IH|i l l' H1 H2 IH|c c' l l' H1 IH1 H2 IH2|c c' l l' H1 IH1 H2 IH2|c c' l l' H1 IH1 H2 IH2|d t c c' l l' H1 IH1 H2 IH2|c c' l l' H1 IH1 H2 IH2|n n' c c' l l' N H1 IH1 H2 IH2 H3 IH3];
    intros W x I; cbn [flat_map inline_preorder link_children lr_label lr_text] in W, I; try contradiction.
  - destruct I as [I|I].
    + injection I as ->. intros a w b E. apply (W t (or_introl eq_refl) a w b). now rewrite <- (same_tokens t x).
    + cbn in I. apply IH; [|exact I]. intros y J. apply W. now right.
  - apply in_app_or in I as [I|I]; [destruct i; cbn in I; try contradiction; destruct I as [I|[]]; discriminate|]. apply IH; [|exact I]. intros y J. apply W. apply in_or_app. now right.
  - destruct I as [I|I]; [discriminate|]. apply in_app_or in I as [I|I]; [apply IH1|apply IH2]; auto; intros y J; apply W; right; apply in_or_app; auto.
  - destruct I as [I|I]; [discriminate|]. apply in_app_or in I as [I|I]; [apply IH1|apply IH2]; auto; intros y J; apply W; right; apply in_or_app; auto.
  - destruct I as [I|I]; [discriminate|]. apply in_app_or in I as [I|I]; [apply IH1|apply IH2]; auto; intros y J; apply W; right; apply in_or_app; auto.
  - destruct I as [I|I]; [discriminate|]. apply in_app_or in I as [I|I]; [apply IH1|apply IH2]; auto; intros y J; apply W; right; apply in_or_app; auto.
  - assert (C : forall y, In (IText y) (flat_map inline_preorder c) -> wraps_safely udigit y) by (intros y J; apply W; right; apply in_or_app; left; apply in_or_app; auto).
    destruct I as [I|I]; [discriminate|]. apply in_app_or in I as [I|I]; [apply in_app_or in I as [I|I]; auto|]. apply IH2; auto; intros y J; apply W; right; apply in_or_app; auto.
  - assert (C : forall y, In (IText y) (flat_map inline_preorder n) -> wraps_safely udigit y) by (intros y J; apply W; right; apply in_or_app; left; apply in_or_app; auto).
    assert (C2 : forall y, In (IText y) (flat_map inline_preorder c) -> wraps_safely udigit y) by (intros y J; apply W; right; apply in_or_app; left; apply in_or_app; auto).
    destruct I as [I|I]; [discriminate|]. apply in_app_or in I as [I|I]; [apply in_app_or in I as [I|I]; auto|]. apply IH3; auto; intros y J; apply W; right; apply in_or_app; auto.
Qed.
(** ... on one line *)
Lemma fixed_text : forall t, (forall c, In c t -> is_whitespace c = true -> c = c_sp \/ c = c_nl) ->
  (forall a b x y, t = a ++ x :: y :: b -> is_whitespace x = true -> is_whitespace y = false) -> flat_map piece_text (fixed (tokens t)) = unwrap_text t.
Proof.
  induction t as [|c t IH]; intros H1 H2; [reflexivity|].
  assert (IH' : flat_map piece_text (fixed (tokens t)) = unwrap_text t).
  { apply IH; [intros x I; apply H1; now right|]. intros a b x y E. apply (H2 (c :: a) b x y). now rewrite E. }
  clear IH. change (unwrap_text (c :: t)) with (flat_blank c :: unwrap_text t). rewrite token_cons. unfold token_char. destruct (is_whitespace c) eqn:W.
  - assert (N : forall l, tokens t <> None :: l).
    { intros l E. destruct t as [|d t]; [discriminate|]. rewrite token_cons in E. unfold token_char in E.
      rewrite (H2 [] t c d eq_refl W) in E. destruct (tokens t) as [|[|]]; discriminate. }
    assert (FC : flat_blank c = c_sp) by (destruct (H1 c) as [-> | ->]; [now left|exact W|reflexivity|reflexivity]). rewrite FC.
    destruct (tokens t) as [|[w|] l]; [| |destruct (N l eq_refl)]; cbn [fixed map flat_map piece_text app]; rewrite <- IH'; reflexivity.
  - assert (FC : flat_blank c = c) by (unfold flat_blank; destruct (N.eqb_spec c c_nl) as [->|]; [discriminate|reflexivity]). rewrite FC.
    destruct (tokens t) as [|[w|] l]; cbn [fixed map flat_map piece_text app] in *; rewrite <- IH'; reflexivity.
Qed.
Lemma unwrap_same : forall t, same t (unwrap_text t).
Proof. intros t. unfold same, unwrap_text. rewrite map_map. apply map_ext. intros c. destruct (N.eqb_spec c c_nl) as [->|N]; [reflexivity|]. destruct (N.eqb_spec c c_nl); [contradiction|reflexivity]. Qed.
Lemma unwrap_breaks : forall t, breaks_ok (unwrap_text t).
Proof.
  intros t a b w l E _. assert (I : In c_nl (unwrap_text t)) by (rewrite E; apply in_or_app; right; now left).
  unfold unwrap_text in I. apply in_map_iff in I as (c & X & _). destruct (N.eqb_spec c c_nl); [discriminate|contradiction].
Qed.
Lemma rewrap_flat : forall l, rich l -> rewrap l (unwrap_inlines l).
Proof.
  induction 1 as [|t l H1 H2 IH2 H3 H4 H5|l H1 IH1 H2|s l H1 H2 IH2 H3|c l H1 IH1 H2 H3 H4 H5 IH5 H6|c l H1 IH1 H2 H3 H4 IH4 H5|c l H1 IH1 H2 H3 H4 IH4 H5|c l H1 IH1 H2 H3 H4 IH4 H5
    |d t c l H1 IH1 H2 H3 H4 IH4|d t a l H1 H2 H3 H4 IH4|u l H1 H2 IH2|n l H1 H2 H3 IH3 H4|c l H1 IH1 H2 H3 H4 IH4 H5|n c l H1 IH1 H2 H3 IH3 H4 H5 H6 H7 IH7]; unfold unwrap_inlines in *; cbn [map unwrap_inline];
    try (now (constructor; try exact I)).
  - constructor; [apply unwrap_same|apply unwrap_breaks|exact IH2].
  - apply rw_strong; [|exact IH4]. apply rw_emphasis; [exact IH1|constructor].
Qed.
Lemma one_line_source : forall l, rich l -> flat_map piece_text (inlines_view udigit false l) = source (unwrap_inlines l).
Proof.
  induction 1 as [|t l H1 H2 IH2 H3 H4 H5|l H1 IH1 H2|s l H1 H2 IH2 H3|c l H1 IH1 H2 H3 H4 H5 IH5 H6|c l H1 IH1 H2 H3 H4 IH4 H5|c l H1 IH1 H2 H3 H4 IH4 H5|c l H1 IH1 H2 H3 H4 IH4 H5
    |d t c l H1 IH1 H2 H3 H4 IH4|d t a l H1 H2 H3 H4 IH4|u l H1 H2 IH2|n l H1 H2 H3 IH3 H4|c l H1 IH1 H2 H3 H4 IH4 H5|n c l H1 IH1 H2 H3 IH3 H4 H5 H6 H7 IH7]; rewrite ?inlines_cons, ?flat_map_app;
    unfold unwrap_inlines in *; cbn [map]; rewrite ?source_cons; try reflexivity; (apply (f_equal2 (@app char)); [|assumption]); cbn [inline_view unwrap_inline]; try reflexivity.
  - destruct H1 as (_ & _ & W1 & W2). now apply fixed_text.
  - rewrite !flat_map_app. cbn [source_of flat_map piece_text]. rewrite !app_nil_r. unfold inlines_view in IH1. rewrite IH1. reflexivity.
  - rewrite !flat_map_app. cbn [source_of flat_map piece_text]. rewrite !app_nil_r. unfold inlines_view in IH1. rewrite IH1. reflexivity.
  - cbn [flat_map map unwrap_inline]. rewrite !flat_map_app. cbn [inline_view source_of flat_map piece_text]. rewrite !app_nil_r, !flat_map_app. cbn [flat_map piece_text]. rewrite ?app_nil_r. unfold inlines_view in IH1. rewrite IH1. reflexivity.
  - rewrite !flat_map_app. cbn [source_of flat_map piece_text]. rewrite !app_nil_r. unfold inlines_view in IH1. rewrite IH1. reflexivity.
  - rewrite !flat_map_app. cbn [source_of flat_map piece_text]. rewrite !app_nil_r. unfold inlines_view in IH1. rewrite IH1. destruct t as [t|]; cbn [flat_map piece_text title_source]; unfold quoted_title; rewrite ?app_nil_r, <- ?app_assoc; reflexivity.
  - cbn [source_of flat_map piece_text]. now rewrite app_nil_r.
  - cbn [source_of flat_map piece_text]. now rewrite app_nil_r.
  - replace (list_eqb inline_eqb c c) with true by (symmetry; now apply label_eqb_eq). rewrite source_same_ref. rewrite !flat_map_app. cbn [flat_map piece_text]. rewrite !app_nil_r. unfold inlines_view in IH1. rewrite IH1. reflexivity.
  - destruct (list_eqb inline_eqb n c) eqn:E; [apply label_eqb_eq in E; congruence|]. rewrite source_ref by exact H6.
    rewrite !flat_map_app. cbn [flat_map piece_text]. rewrite !app_nil_r. unfold inlines_view in IH1, IH3. rewrite IH1, IH3. reflexivity.
Qed.
End Wrap.
