(** C64: a backslash behind plain text is kept. *)
From Coq Require Import String Lia.
From Verif Require Import Nom ParserConfig ParserInline SpecParser ParserPlain ShapeFacts SyntaxFacts SyntaxInline2 SpecInline.
Import ListNotations.
Open Scope list_scope.

Section Esc.
  Variable cfg : config.
  (** where something special stands *)
  Lemma special_at : forall c s, special cfg (c :: s) ->
    (In c special_chars /\ c <> ch "\") \/ (c = ch "\" /\ exists e r, s = e ++ r /\ is_eol e) \/ (c = 32%N /\ exists t, s = 32%N :: t) \/ (c = ch "!" /\ exists t, s = ch "[" :: t) \/
    (exists w r, c :: s = w ++ r /\ all word_char w /\ In (ch "_") w).
  Proof.
    assert (In1 : forall x, In x (lit "<[`*_~&") -> In x special_chars /\ x <> ch "\").
    { intros x I. cbn in I. repeat (destruct I as [<-|I]; [split; [cbn; tauto|discriminate]|]). destruct I. }
    assert (BR : forall s t r, bracket_at s t r -> exists u, s = ch "[" :: u). { intros s t r (raw & -> & _). eexists. reflexivity. }
    intros c s [X|(v & r & X)].
    - unfold element_rules in X. rewrite !Exists_cons, Exists_nil in X.
      repeat match type of X with _ \/ _ => destruct X as [X|X] end; try contradiction; destruct X as (p & r & X); unfold on in X; try match type of X with _ /\ _ => destruct X as [_ X] end; inversion X; subst.
      + match goal with H : autolink_at _ _ _ |- _ => destruct H as [H _]; injection H as -> _ end. left. apply In1. cbn. tauto.
      + match goal with H : bracket_at _ _ _ |- _ => apply BR in H as (u & H); injection H as -> _ end. left. apply In1. cbn. tauto.
      + left. apply In1. cbn. tauto.
      + match goal with H : bracket_at (_ :: _) _ _ |- _ => apply BR in H as (u & H); injection H as -> _ end. left. apply In1. cbn. tauto.
      + match goal with H : bracket_at (_ :: _) _ _ |- _ => apply BR in H as (u & H); injection H as -> _ end. left. apply In1. cbn. tauto.
      + match goal with H : bracket_at (_ :: _) _ _ |- _ => apply BR in H as (u & H); injection H as -> _ end. left. apply In1. cbn. tauto.
      + right. left. split; [reflexivity|eauto].
      + right. right. left. destruct n as [|[|n]]; [lia|lia|]. cbn in *. match goal with H : _ :: _ = _ :: _ |- _ => injection H as <- <- end. eauto.
      + right. right. right. left. split; [reflexivity|]. eexists. reflexivity.
      + match goal with H : code_span_source _ _ _ _ |- _ => destruct H as (H & N & _) end. destruct n as [|n]; [lia|]. cbn in H. left. injection H as -> _. apply In1. cbn. tauto.
      + do 4 right. eexists (_ :: _), _. split; [reflexivity|]. split; [constructor; [unfold word_char, is_alnum; match goal with H : is_alpha _ = true |- _ => now rewrite H end|assumption]|now right].
      + match goal with H : delimited_by _ _ _ _ _ |- _ => destruct H as (k & E & _) end. destruct n as [|n]; [lia|]. cbn in E. injection E as -> _. left. apply In1.
        match goal with H : In m _ |- _ => cbn in H; destruct H as [<-|[<-|[]]]; cbn; tauto end.
      + left. apply In1. cbn. tauto.
    - left. apply In1. inversion X; subst; cbn; tauto.
  Qed.
  Lemma text_place : forall a c b, plain_text a -> is_ascii_punct c = true ->
    forall x y, a ++ [ch "\"] = x ++ y -> y <> [] -> ~ special cfg (y ++ c :: b).
  Proof.
    intros a c b [P1 P2] Hc x y E N S. destruct y as [|h y]; [congruence|]. cbn [app] in S. apply special_at in S.
    assert (D : (exists y', h :: y = y' ++ [ch "\"] /\ a = x ++ y')).
    { destruct (@exists_last _ (h :: y)) as (y' & z & F); [discriminate|]. rewrite F in E |- *. rewrite app_assoc in E. apply app_inj_tail in E as [-> <-]. eauto. }
    destruct D as (y' & F & ->). apply Forall_app in P1 as [_ P1].
    assert (NE : forall e r, is_eol e -> c :: b = e ++ r -> False).
    { intros e r He Q. destruct He as [-> | ->]; injection Q as -> _; discriminate Hc. }
    destruct y' as [|h' y'].
    - injection F as -> ->. cbn [app] in S. destruct S as [[_ S]|[(_ & e & r & E1 & E2)|[[S _]|[[S _]|(w & r & E1 & E2 & E3)]]]]; try congruence; try discriminate S; [eapply NE; eassumption|].
      destruct w as [|h w]; [destruct E3|]. injection E1 as <- _. inversion E2; subst. discriminate.
    - injection F as -> ->. inversion P1 as [|? ? H1 H2]; subst. destruct S as [[S _]|[(-> & _)|[(-> & t & S)|[(-> & t & S)|(w & r & E1 & E2 & E3)]]]].
      + contradiction.
      + apply H1. cbn. tauto.
      + destruct y' as [|h y']; [discriminate S|]. injection S as -> _. eapply (P2 x y'). reflexivity.
      + destruct y' as [|h y']; [discriminate S|]. injection S as -> _. inversion H2; subst. match goal with H : plain_char (ch "[") |- _ => apply H; cbn; tauto end.
      + assert (X : exists k, h' :: y' = w ++ k).
        { change (h' :: (y' ++ [ch "\"]) ++ c :: b) with ((h' :: y' ++ [ch "\"]) ++ c :: b) in E1. rewrite app_comm_cons, <- app_assoc in E1. apply app_eq_app in E1 as (k & [[E1 _]|[E1 E4]]); [eauto|]. destruct k as [|q k]; [rewrite app_nil_r in E1; exists []; now rewrite app_nil_r|].
          exfalso. cbn in E4. injection E4 as Q _. subst q. rewrite E1 in E2. apply Forall_app in E2 as [_ E2]. inversion E2; subst. discriminate. }
        destruct X as (k & X). assert (Y : Forall plain_char w). { rewrite X in P1. now apply Forall_app in P1. } rewrite Forall_forall in Y. apply Y in E3. apply E3. cbn. tauto.
  Qed.
  Lemma run_goes : forall p s v r, (forall x y, p = x ++ y -> y <> [] -> ~ special cfg (y ++ s)) -> run_of cfg (p ++ s) v r -> exists t, v = p ++ t.
  Proof.
    induction p as [|c p IH]; intros s v r H R; [now exists v|]. inversion R as [s' E|c' s' t r' N R']; subst.
    - exfalso. destruct E as [E|E]; [discriminate E|]. now apply (H [] (c :: p) eq_refl).
    - destruct (IH s t r) as (u & ->); [|exact R'|now exists u]. intros x y -> Hy. now apply (H (c :: x) y).
  Qed.
  Lemma joined_text : forall l l', joins_to l l' -> forall t k, l = IText t :: k -> exists u k', l' = IText (t ++ u) :: k'.
  Proof.
    induction 1 as [l|l m n J _ IH]; intros t k ->; [exists [], k; now rewrite app_nil_r|].
    inversion J as [a s u b E]. destruct a as [|i a].
    - cbn in E. injection E as E1 E2. subst. cbn [app] in IH. destruct (IH (t ++ u) b eq_refl) as (x & k' & ->). exists (u ++ x), k'. now rewrite app_assoc.
    - cbn in E. injection E as E1 E2. subst. cbn [app] in IH. eapply IH. reflexivity.
  Qed.
  Hypothesis Hcustom : custom_inline cfg = None.
  Hypothesis Htext : i_text cfg = Parse.
  Theorem backslash_kept : forall a c b l, a <> [] -> plain_text a -> is_ascii_punct c = true ->
    reads cfg (a ++ ch "\" :: c :: b) l -> exists t l', l = IText (a ++ ch "\" :: t) :: l'.
  Proof.
    intros a c b l Na Pa Hc R. inversion R as [s k l' P J M]; subst. 
    pose proof (text_place a c b Pa Hc) as TP.
    inversion P as [E|s p r o k' F Y Q]; subst; [now destruct a|].
    assert (NS : ~ special cfg (a ++ ch "\" :: c :: b)).
    { specialize (TP [] (a ++ [ch "\"]) eq_refl). rewrite <- app_assoc in TP. apply TP. now destruct a. }
    assert (F' : first_of [r_custom cfg; on (i_text cfg) (r_text cfg)] (a ++ ch "\" :: c :: b) p r).
    { unfold inline_rules in F. assert (G : forall rs tl, (forall R0, In R0 rs -> ~ applies R0 (a ++ ch "\" :: c :: b)) -> first_of (rs ++ tl) (a ++ ch "\" :: c :: b) p r -> first_of tl (a ++ ch "\" :: c :: b) p r).
      { induction rs as [|R0 rs IH]; intros tl0 Hr H; [exact H|]. cbn [app first_of] in H. destruct H as [H|[_ H]]; [exfalso; apply (Hr R0); [now left|unfold applies; eauto]|]. apply IH; [|exact H]. intros R1 I. apply Hr. now right. }
      apply G in F; [exact F|]. intros R0 I A. apply NS. left. apply Exists_exists. eauto. }
    cbn [first_of] in F'. destruct F' as [F'|[_ [F'|[_ []]]]].
    { inversion F'; subst. congruence. }
    destruct F' as [_ F']. inversion F' as [s0 ch0 r0 N0 C]; subst. inversion Y as [p i B|l0]; subst. inversion B; subst. cbn [behavior_of] in *. rewrite Htext in *. cbn [outcome] in *.
    assert (V : exists t, concat ch0 = a ++ ch "\" :: t).
    { inversion C as [|s1 v m ks r1 K C']; subst; [congruence|].
      assert (Hd : exists x a', a = x :: a' /\ plain_char x). { destruct a as [|x a']; [congruence|]. exists x, a'. split; [reflexivity|]. destruct Pa as [Pa _]. now inversion Pa. }
      destruct K as [K|[(_ & K)|(_ & _ & _ & K)]].
      - exfalso. destruct Hd as (x & a' & -> & X). inversion K; subst. apply X. cbn. tauto.
      - exfalso. apply NS. right. eauto.
      - replace (a ++ ch "\" :: c :: b) with ((a ++ [ch "\"]) ++ c :: b) in K by now rewrite <- app_assoc. apply run_goes in K as (t & ->); [|exact TP].
        exists (t ++ concat ks). cbn [concat]. now rewrite <- !app_assoc. }
    destruct V as (t & V). rewrite V in J. destruct (joined_text _ _ J _ _ eq_refl) as (u & k2 & ->). exists (t ++ u), k2. f_equal. f_equal. now rewrite <- app_assoc.
  Qed.
End Esc.
