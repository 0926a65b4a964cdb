(** The renderer computes the greedy layout. *)
From Coq Require Import String Lia.
From Verif Require Export SpecFlow.
From Verif Require Import MdView.
Import ListNotations.
Open Scope list_scope.

(** ** Pieces *)
Fixpoint allwords (ps : pieces) : bool := match ps with [] => true | (_, Word _) :: r => allwords r | _ => false end.
Fixpoint calm (ps : pieces) : bool :=
  match ps with [] => true | (_, Word _) :: r => calm r | (_, Soft) :: _ | (_, Newline) :: _ => true | _ => false end.
(** a blank whose next words are not all in [ps] *)
Fixpoint looks (ps : pieces) : bool := match ps with [] => false | (_, Soft) :: r => allwords r || looks r | _ :: r => looks r end.
Inductive orderly : pieces -> Prop :=
| ord_nil : orderly []
| ord_word : forall i s r, orderly r -> orderly ((i, Word s) :: r)
| ord_soft : forall i r, calm r = true -> orderly r -> orderly ((i, Soft) :: r)
| ord_newline : forall i r, orderly r -> orderly ((i, Newline) :: r)
| ord_quoted : forall i inner r, orderly inner -> orderly r -> orderly ((i, Quoted inner) :: r)
| ord_alerted : forall i inner r, orderly inner -> orderly r -> orderly ((i, Alerted inner) :: r).
Lemma allwords_app : forall a b, allwords (a ++ b) = allwords a && allwords b.
Proof. induction a as [|[i []] a IH]; intros b; cbn; auto. Qed.
Lemma calm_app : forall a b, calm (a ++ b) = if allwords a then calm b else calm a.
Proof. induction a as [|[i []] a IH]; intros b; cbn; auto. Qed.
Lemma calm_words : forall a, allwords a = true -> calm a = true.
Proof. induction a as [|[i []] a IH]; cbn; auto; discriminate. Qed.
Lemma looks_app : forall a b, looks (a ++ b) = looks a && allwords b || looks b.
Proof.
  induction a as [|[i []] a IH]; intros b; cbn; auto. rewrite allwords_app, IH. destruct (allwords a), (looks a), (allwords b), (looks b); reflexivity.
Qed.
Lemma orderly_app : forall a b, orderly (a ++ b) <-> orderly a /\ orderly b /\ (looks a = true -> calm b = true).
Proof.
  induction a as [|[i p] a IH]; intros b; cbn [app looks].
  - split; [intro H; repeat split; auto; [constructor|discriminate]|tauto].
  - split.
    + intro H. inversion H as [|? ? ? O|? ? C O|? ? O|? ? ? O1 O|? ? ? O1 O]; subst; apply IH in O as (O2 & O3 & O4); repeat split; auto; try (constructor; auto; fail).
      * rewrite calm_app in C. constructor; auto. destruct (allwords a) eqn:W; [now apply calm_words|exact C].
      * intro L. rewrite calm_app in C. destruct (allwords a); [exact C|auto].
    + intros (H & B & C). inversion H as [|? ? ? O|? ? K O|? ? O|? ? ? O1 O|? ? ? O1 O]; subst; constructor; auto; try (apply IH; repeat split; auto; fail).
      * rewrite calm_app. destruct (allwords a) eqn:W; auto.
      * apply IH. repeat split; auto. intro L. apply C. rewrite L. apply Bool.orb_true_r.
Qed.

Section Flow.
Variable uwidth : str -> nat.
Variable page : nat.
Local Notation ahead := (ahead uwidth).
Local Notation den := (den uwidth page).
Definition ahead_to (k : nat) (ps : pieces) : nat := ahead ps + if allwords ps then k else 0.
Lemma ahead_app : forall a b, ahead (a ++ b) = ahead a + if allwords a then ahead b else 0.
Proof. induction a as [|[i []] a IH]; intros b; cbn; auto. rewrite IH. lia. Qed.
Lemma ahead_to_app : forall k a b, ahead_to k (a ++ b) = ahead_to (ahead_to k b) a.
Proof. intros k a b. unfold ahead_to. rewrite ahead_app, allwords_app. destruct (allwords a), (allwords b); cbn; lia. Qed.

Fixpoint lay (aft : option nat) (k w col : nat) (ps : pieces) : str * nat :=
  match ps with
  | [] => ([], col)
  | (i, p) :: ps' =>
      let '(o, c) := piece_out uwidth page w col i (next_indent aft i ps') (ahead_to k ps') p in
      let '(o', c') := lay aft k w c ps' in (o ++ o', c')
  end.
Lemma lay_out : forall w ps col, fst (lay None 0 w col ps) = pieces_out uwidth (piece_out uwidth page) w col ps.
Proof.
  intros w. induction ps as [|[i p] ps IH]; intros col; cbn [lay pieces_out]; [reflexivity|].
  replace (ahead_to 0 ps) with (ahead ps) by (unfold ahead_to; destruct (allwords ps); lia).
  destruct (piece_out uwidth page w col i (next_indent None i ps) (ahead ps) p) as [o c]. specialize (IH c). destruct (lay None 0 w c ps) as [o' c']. cbn [fst] in *. now rewrite IH.
Qed.
Lemma lay_app : forall aft' aft k w pb pa col, meets aft' aft pa pb ->
  lay aft k w col (pa ++ pb) =
  let '(oa, c) := lay aft' (ahead_to k pb) w col pa in let '(ob, c') := lay aft k w c pb in (oa ++ ob, c').
Proof.
  intros aft' aft k w pb. induction pa as [|[i p] pa IH]; intros col M; cbn [app lay].
  - destruct (lay aft k w col pb); reflexivity.
  - rewrite ahead_to_app.
    assert (E : piece_out uwidth page w col i (next_indent aft i (pa ++ pb)) (ahead_to (ahead_to k pb) pa) p
              = piece_out uwidth page w col i (next_indent aft' i pa) (ahead_to (ahead_to k pb) pa) p).
    { destruct p; try reflexivity; (erewrite (meets_next aft' aft i); [reflexivity| |exact M]); discriminate. }
    rewrite E. destruct (piece_out uwidth page w col i (next_indent aft' i pa) (ahead_to (ahead_to k pb) pa) p) as [o c].
    rewrite (IH c (meets_tail _ _ _ _ _ M)). destruct (lay aft' (ahead_to k pb) w c pa) as [oa c1]. destruct (lay aft k w c1 pb) as [ob c2]. now rewrite app_assoc.
Qed.

(** ** Fitting *)
Lemma fit_break : forall w i d ps, den i d ps -> calm ps = true -> forall pos, pos <= w ->
  fit uwidth w Break d pos = if w <? pos + ahead ps then FNo else if allwords ps then FGo (pos + ahead ps) else FYes.
Proof.
  intros w i d ps D. induction D as [i|i s|i a b pa pb A IHa B IHb _|i|i d ps D IH|i n d ps D IH|i|i c d ps E D IH|i d ps m t D IH E]; intros C pos L;
    cbn [fit SpecFlow.ahead allwords calm] in *; try discriminate; auto.
  - rewrite Nat.add_0_r. destruct (Nat.ltb_spec w pos); [lia|reflexivity].
  - rewrite Nat.add_0_r. reflexivity.
  - rewrite calm_app in C. rewrite ahead_app, allwords_app. destruct (allwords pa) eqn:Wa.
    + rewrite IHa by (auto using calm_words). cbn [andb]. destruct (Nat.ltb_spec w (pos + ahead pa)).
      * destruct (Nat.ltb_spec w (pos + (ahead pa + ahead pb))); [reflexivity|lia].
      * rewrite IHb by auto. now rewrite Nat.add_assoc.
    + rewrite IHa by auto. rewrite Nat.add_0_r. destruct (w <? pos + ahead pa); reflexivity.
  - rewrite Nat.add_0_r. destruct (Nat.ltb_spec w pos); [lia|reflexivity].
  - rewrite Nat.add_0_r. destruct (Nat.ltb_spec w pos); [lia|reflexivity].
Qed.
Definition roomy (w : nat) (rest : list cmd) (k : nat) : Prop :=
  forall p, p <= w -> fit_rest uwidth w rest p = if w <? p + k then FNo else FYes.
Lemma roomy_cons : forall w i m b pb rest k, den i b pb -> calm pb = true -> (allwords pb = true -> roomy w rest k) ->
  roomy w ((i, m, b) :: rest) (ahead_to k pb).
Proof.
  intros w i m b pb rest k D C R p L. cbn [fit_rest]. rewrite (fit_break w i b pb D C p L). unfold ahead_to.
  destruct (allwords pb).
  - destruct (Nat.ltb_spec w (p + ahead pb)).
    + destruct (Nat.ltb_spec w (p + (ahead pb + k))); [reflexivity|lia].
    + rewrite R by auto. now rewrite Nat.add_assoc.
  - rewrite Nat.add_0_r. destruct (w <? p + ahead pb); reflexivity.
Qed.
Lemma fit_le : forall w m d pos pos', fit uwidth w m d pos = FGo pos' -> pos' = pos \/ pos' <= w.
Proof.
  intros w m d. induction d as [|s|a IHa b IHb|b IHb f IHf|d IH|n d IH| |f IH|]; intros pos pos' E; cbn [fit] in E.
  - injection E as <-. now left.
  - destruct (Nat.ltb_spec w (pos + text_len uwidth s)); [discriminate|]. injection E as <-. now right.
  - destruct (fit uwidth w m a pos) as [| |p1|] eqn:Ea; try discriminate. apply IHa in Ea. apply IHb in E. destruct Ea as [->|Ea], E as [->|E]; auto.
  - destruct m; eauto.
  - eauto.
  - eauto.
  - destruct m; discriminate.
  - eauto.
  - discriminate.
Qed.
Lemma fit_flat_yes : forall w d pos, fit uwidth w Flat d pos <> FYes.
Proof.
  intros w d. induction d as [|s|a IHa b IHb|b IHb f IHf|d IH|n d IH| |f IH|]; intros pos; cbn [fit]; auto; try discriminate.
  - destruct (w <? _); discriminate.
  - specialize (IHa pos). destruct (fit uwidth w Flat a pos); auto; discriminate.
Qed.
Lemma flat_end : forall w d i rest pos pos' o p, fit uwidth w Flat d pos = FGo pos' -> best uwidth w i Flat d rest pos = Some (o, p) -> p = pos'.
Proof.
  intros w d. induction d as [|s|a IHa b IHb|b IHb f IHf|d IH|n d IH| |f IH|]; intros i rest pos pos' o p F E; cbn [fit best] in F, E; eauto; try discriminate.
  - congruence.
  - destruct (w <? _); congruence.
  - destruct (fit uwidth w Flat a pos) as [| |p1|] eqn:Fa; try discriminate.
    destruct (best uwidth w i Flat a ((i, Flat, b) :: rest) pos) as [[oa q1]|] eqn:Ea; [|discriminate].
    destruct (best uwidth w i Flat b rest q1) as [[ob q2]|] eqn:Eb; [|discriminate]. injection E as <- <-.
    assert (q1 = p1) as -> by eauto. eauto.
Qed.
Lemma flat_looks : forall w i d ps, den i d ps -> looks ps = true -> forall pos pos', fit uwidth w Flat d pos = FGo pos' -> pos' <= w.
Proof.
  intros w i d ps D. induction D as [i|i s|i a b pa pb A IHa B IHb _|i|i d ps D IH|i n d ps D IH|i|i c d ps E D IH|i d ps m t D IH E]; intros L pos pos' F;
    cbn [looks] in L; try discriminate; eauto.
  - cbn [fit] in F. destruct (fit uwidth w Flat a pos) as [| |p1|] eqn:Fa; try discriminate. rewrite looks_app in L. destruct (looks pb) eqn:Lb; [eauto|].
    rewrite Bool.orb_false_r in L. apply Bool.andb_true_iff in L as [La _]. specialize (IHa La _ _ Fa). destruct (fit_le _ _ _ _ _ F); lia.
  - unfold softline, group, line, space in F. cbn [fit] in F. change (text_len uwidth [c_sp]) with 1 in F. destruct (Nat.ltb_spec w (pos + 1)); [discriminate|]. injection F as <-. lia.
Qed.
Lemma flat_ahead : forall w i d ps, den i d ps -> calm ps = true -> forall pos pos', fit uwidth w Flat d pos = FGo pos' ->
  if allwords ps then pos' = pos + ahead ps else pos + ahead ps <= w.
Proof.
  intros w i d ps D. induction D as [i|i s|i a b pa pb A IHa B IHb _|i|i d ps D IH|i n d ps D IH|i|i c d ps E D IH|i d ps m t D IH E]; intros C pos pos' F;
    cbn [fit SpecFlow.ahead allwords calm] in *; try discriminate; eauto.
  - injection F as <-. lia.
  - destruct (w <? _); [discriminate|]. injection F as <-. unfold columns. lia.
  - destruct (fit uwidth w Flat a pos) as [| |p1|] eqn:Fa; try discriminate. rewrite calm_app in C. rewrite allwords_app, ahead_app. destruct (allwords pa) eqn:Wa.
    + specialize (IHa (calm_words _ Wa) _ _ Fa). subst p1. specialize (IHb C _ _ F). cbn [andb]. destruct (allwords pb); lia.
    + specialize (IHa C _ _ Fa). cbn [andb]. lia.
  - unfold softline, group, line, space in F. cbn [fit] in F. change (text_len uwidth [c_sp]) with 1 in F. destruct (Nat.ltb_spec w (pos + 1)); [discriminate|]. lia.
  - exact (IH C _ _ F).
  - exact (IH C _ _ F).
Qed.

(** ** Quotes *)
Lemma best_docs : forall w i m (l : list (doc * (str * nat))),
  Forall (fun x => fst x <> DNil /\ forall rest pos, best uwidth w i m (fst x) rest pos = Some (fst (snd x), pos + snd (snd x))) l ->
  forall d rest pos o p, d <> DNil -> (forall rest, best uwidth w i m d rest pos = Some (o, p)) ->
  best uwidth w i m (fold_left (fun acc y => append (append acc DHardline) y) (map fst l) d) rest pos
  = Some (o ++ flat_map (fun x => break_to i ++ fst (snd x)) l, match l with [] => p | _ => i + snd (snd (last l (DNil, ([], 0)))) end).
Proof.
  intros w i m l F. induction F as [|x l [Nx X] F IH]; intros d rest pos o p N H; cbn [map fold_left flat_map].
  - rewrite app_nil_r. apply H.
  - replace (append (append d DHardline) (fst x)) with (DAppend (DAppend d DHardline) (fst x)) by (destruct d; try congruence; cbn [append]; destruct (fst x); congruence).
    rewrite (IH _ rest pos (o ++ break_to i ++ fst (snd x)) (i + snd (snd x))); [|discriminate|].
    + rewrite <- !app_assoc. destruct l; reflexivity.
    + intro r. cbn [best]. rewrite H. rewrite X. now rewrite <- app_assoc.
Qed.
Lemma quote_lines : forall w i m ls rest pos,
  best uwidth w i m (intersperse (map (fun d => append (DText (lit "> ")) (DText d)) ls) DHardline) rest pos
  = Some (join (break_to i) (map (fun l => lit "> " ++ l) ls), line_end uwidth pos i (map (fun l => [lit "> "; l]) ls)).
Proof.
  intros w i m [|x ls] rest pos; [reflexivity|]. cbn [map intersperse].
  set (f := fun l : str => (DAppend (DText (lit "> ")) (DText l), (lit "> " ++ l, text_len uwidth (lit "> ") + text_len uwidth l))).
  replace (map (fun d => append (DText (lit "> ")) (DText d)) ls) with (map fst (map f ls)) by (rewrite map_map; reflexivity).
  change (append (DText (lit "> ")) (DText x)) with (DAppend (DText (lit "> ")) (DText x)).
  rewrite (best_docs w i m (map f ls)) with (o := lit "> " ++ x) (p := pos + text_len uwidth (lit "> ") + text_len uwidth x).
  - f_equal. f_equal.
    + cbn [map]. rewrite join_flat. f_equal. clear. induction ls as [|y ls IH]; [reflexivity|]. cbn [map flat_map]. now rewrite IH.
    + unfold line_end, columns. destruct ls as [|y ls]; [cbn; lia|].
      assert (G : forall (A B : Type) (g : A -> B) (l : list A) x a b, last (map g (x :: l)) b = g (last (x :: l) a)).
      { clear. intros A B g l. induction l as [|y l IH]; intros x a b; [reflexivity|]. change (last (map g (y :: l)) b = g (last (y :: l) a)). apply IH. }
      cbn [map]. match goal with |- context [last (f y :: map f ls) ?z] => change (last (f y :: map f ls) z) with (last (map f (y :: ls)) z); rewrite (G _ _ f ls y [] z) end.
      change (last ([lit "> "; x] :: [lit "> "; y] :: map (fun l => [lit "> "; l]) ls) []) with (last (map (fun l => [lit "> "; l]) (y :: ls)) []).
      rewrite (G _ _ (fun l : str => [lit "> "; l]) ls y [] []). unfold f. cbn [snd map list_sum fold_right]. lia.
  - apply Forall_map. apply Forall_forall. intros y _. split; [discriminate|]. intros r q. cbn [f fst snd best]. f_equal. f_equal. lia.
  - discriminate.
  - intro r. reflexivity.
Qed.

(** ** The layout *)
Theorem den_lay : forall i d ps, den i d ps -> orderly ps ->
  (forall w rest pos o p k, (looks ps = true -> roomy w rest k) -> best uwidth w i Break d rest pos = Some (o, p) ->
     lay (rind rest) k w pos ps = (o, p)) /\
  (forall w rest pos pos' o p k aft, fit uwidth w Flat d pos = FGo pos' -> best uwidth w i Flat d rest pos = Some (o, p) ->
     (looks ps = true -> pos' + k <= w) -> lay aft k w pos ps = (o, p)).
Proof.
  intros i d ps D. induction D as [i|i s|i a b pa pb A IHa B IHb M|i|i d ps D IH|i n d ps D IH|i|i c d ps E D IH|i d ps m t D IH E]; intros O.
  - split; intros; cbn [best lay] in *; congruence.
  - split; [intros w rest pos o p k _ E|intros w rest pos pos' o p k aft _ E _]; cbn [best] in E; injection E as <- <-; cbn [lay piece_out]; rewrite app_nil_r; reflexivity.
  - apply orderly_app in O as (Oa & Ob & C). destruct (IHa Oa) as [A1 A2]. destruct (IHb Ob) as [B1 B2].
    assert (MM : forall aft, meets (Some i) aft pa pb).
    { intro aft. destruct M as [(q & l & ->)|[_ Q]]; [right; right; reflexivity|left; exact Q]. }
    split.
    + intros w rest pos o p k R E. cbn [best] in E.
      destruct (best uwidth w i Break a ((i, Break, b) :: rest) pos) as [[oa p1]|] eqn:Ea; [|discriminate].
      destruct (best uwidth w i Break b rest p1) as [[ob p2]|] eqn:Eb; [|discriminate]. injection E as <- <-.
      rewrite (lay_app (Some i)) by apply MM. apply (A1 _ _ _ _ _ (ahead_to k pb)) in Ea.
      * cbn [rind] in Ea. rewrite Ea. apply (B1 _ _ _ _ _ k) in Eb; [now rewrite Eb|]. intro L. apply R. rewrite looks_app, L. apply Bool.orb_true_r.
      * intro L. apply roomy_cons; auto. intro W. apply R. now rewrite looks_app, L, W.
    + intros w rest pos pos' o p k aft F E L. cbn [best fit] in E, F.
      destruct (fit uwidth w Flat a pos) as [| |p1|] eqn:Fa; try discriminate.
      destruct (best uwidth w i Flat a ((i, Flat, b) :: rest) pos) as [[oa q1]|] eqn:Ea; [|discriminate].
      destruct (best uwidth w i Flat b rest q1) as [[ob q2]|] eqn:Eb; [|discriminate]. injection E as <- <-.
      assert (q1 = p1) as -> by (eapply flat_end; eassumption).
      rewrite (lay_app (Some i)) by apply MM. rewrite looks_app in L.
      rewrite (A2 _ _ _ _ _ _ (ahead_to k pb) (Some i) Fa Ea).
      * rewrite (B2 _ _ _ _ _ _ k aft F Eb); [reflexivity|]. intro Lb. apply L. rewrite Lb. apply Bool.orb_true_r.
      * intro La. specialize (C La). pose proof (flat_ahead _ _ _ _ B C _ _ F) as X. unfold ahead_to. destruct (allwords pb).
        -- rewrite La in L. specialize (L eq_refl). lia.
        -- lia.
  - split.
    + intros w rest pos o p k R E. unfold softline, group, line, space in E. cbn [best fitting] in E. unfold fitting in E. cbn [fit] in E.
      specialize (R eq_refl). change (text_len uwidth [c_sp]) with 1 in E. cbn [lay piece_out].
      replace (next_indent (rind rest) i []) with (match rest with (i0, _, _) :: _ => i0 | [] => i end) by (destruct rest as [|[[? ?] ?] ?]; reflexivity).
      unfold ahead_to. cbn [SpecFlow.ahead allwords]. rewrite Nat.add_0_l. destruct (Nat.ltb_spec w (pos + 1)) as [L|L].
      * injection E as <- <-. destruct (Nat.ltb_spec w (pos + 1 + k)); [|lia]. now rewrite app_nil_r.
      * rewrite R in E by exact L. destruct (w <? pos + 1 + k); injection E as <- <-; rewrite ?app_nil_r; reflexivity.
    + intros w rest pos pos' o p k aft F E L. unfold softline, group, line, space in E, F. cbn [best fit] in E, F.
      change (text_len uwidth [c_sp]) with 1 in *. destruct (Nat.ltb_spec w (pos + 1)); [discriminate|]. injection F as <-. injection E as <- <-.
      specialize (L eq_refl). cbn [lay piece_out]. unfold ahead_to. cbn [SpecFlow.ahead allwords]. rewrite Nat.add_0_l.
      destruct (Nat.ltb_spec w (pos + 1 + k)); [lia|]. reflexivity.
  - destruct (IH O) as [H1 H2]. split.
    + intros w rest pos o p k R E. cbn [best] in E. unfold fitting in E. destruct (fit uwidth w Flat d pos) as [| |pos'|] eqn:F; try discriminate.
      * eauto.
      * exfalso. eapply fit_flat_yes; eassumption.
      * assert (X : best uwidth w i Break d rest pos = Some (o, p) \/ best uwidth w i Flat d rest pos = Some (o, p) /\ (looks ps = true -> pos' + k <= w)).
        { destruct (fit_rest uwidth w rest pos') eqn:Fr; try discriminate; auto; right; (split; [exact E|]); intro L; pose proof (flat_looks _ _ _ _ D L _ _ F) as P;
          rewrite (R L _ P) in Fr; destruct (Nat.ltb_spec w (pos' + k)); (discriminate || lia). }
        destruct X as [X|[X Y]]; eauto.
    + intros w rest pos pos' o p k aft F E L. cbn [best fit] in E, F. eauto.
  - destruct (IH O) as [H1 H2]. split.
    + intros w rest pos o p k R E. cbn [best] in E. eauto.
    + intros w rest pos pos' o p k aft F E L. cbn [best fit] in E, F. eauto.
  - split.
    + intros w rest pos o p k _ E. cbn [best] in E. injection E as <- <-. cbn [lay piece_out].
      replace (next_indent (rind rest) i []) with (match rest with (i0, _, _) :: _ => i0 | [] => i end) by (destruct rest as [|[[? ?] ?] ?]; reflexivity).
      now rewrite app_nil_r.
    + intros w rest pos pos' o p k aft F E L. discriminate.
  - inversion O as [| | | |? ? ? O1 _|]; subst. destruct (IH O1) as [H1 _].
    assert (X : forall w m rest pos o p k aft, best uwidth w i m (DColumn (quote_at uwidth c d)) rest pos = Some (o, p) -> lay aft k w pos [(i, Quoted ps)] = (o, p)).
    { intros w m rest pos o p k aft E2. cbn [best] in E2. unfold quote_at in E2. rewrite E in E2. destruct (page <? pos + 2); [discriminate|].
      destruct (render uwidth (page - pos - 2) d) as [t|] eqn:R; [|discriminate]. rewrite quote_lines in E2. injection E2 as <- <-.
      unfold render in R. destruct (best uwidth (page - pos - 2) 0 Break d [] 0) as [[o p]|] eqn:B; [|discriminate]. injection R as <-.
      apply (H1 _ _ _ _ _ 0) in B; [|intros _ q L; cbn [fit_rest]; rewrite Nat.add_0_r; destruct (Nat.ltb_spec (page - pos - 2) q); [lia|reflexivity]].
      cbn [lay piece_out]. rewrite <- lay_out. cbn [rind] in B. rewrite B. cbn [fst]. now rewrite app_nil_r. }
    split; intros; eapply X; eassumption.
  - inversion O as [|? ? ? O1| | | |]; subst. inversion O1 as [| | | | |? ? ? O2 O3]; subst. destruct (IH O2) as [H1 _].
    unfold render in E. destruct (best uwidth 80 0 Break d [] 0) as [[o0 p0]|] eqn:B; [|discriminate]. injection E as <-.
    apply (H1 _ _ _ _ _ 0) in B; [|intros _ q L; cbn [fit_rest]; rewrite Nat.add_0_r; destruct (Nat.ltb_spec 80 q); [lia|reflexivity]]. cbn [rind] in B.
    assert (X : forall w m0 rest pos o p k aft, best uwidth w i m0 (intersperse (map DText (m :: map alert_line (lines o0))) DHardline) rest pos = Some (o, p) ->
      lay aft k w pos [(i, Word m); (i, Alerted ps)] = (o, p)).
    { intros w m0 rest pos o p k aft E. rewrite best_text_lines in E. injection E as <- <-. cbn [lay piece_out]. rewrite <- lay_out, B. cbn [fst]. rewrite app_nil_r.
      assert (EL : map alert_line (lines o0) = map alert_text (lines o0)) by (apply map_ext; intro l; apply alert_line_text). rewrite EL. f_equal.
      unfold line_end, columns. destruct (map alert_text (lines o0)) as [|y ls]; [cbn; lia|]. cbn [map].
      assert (G : forall (A B : Type) (g : A -> B) (l : list A) x a b, last (map g (x :: l)) b = g (last (x :: l) a)).
      { clear. intros A B g l. induction l as [|z l IH]; intros x a b; [reflexivity|]. change (last (map g (z :: l)) b = g (last (z :: l) a)). apply IH. }
      change (last ([] :: [y] :: map (fun l => [l]) ls) []) with (last (map (fun l : str => [l]) (y :: ls)) []).
      rewrite (G _ _ (fun l : str => [l]) ls y [] []). cbn [map list_sum fold_right]. lia. }
    split; intros; eapply X; eassumption.
Qed.
End Flow.

(** ** The view of a document *)
Definition textual (p : piece) : Prop := match p with Word _ | Soft | Newline => True | _ => False end.
Lemma textual_calm : forall i l, Forall textual l -> calm (at_ i l) = true.
Proof. intros i l F. induction F as [|p l P F IH]; [reflexivity|]. destruct p; try contradiction; auto. Qed.
Lemma textual_orderly : forall i l, Forall textual l -> orderly (at_ i l).
Proof.
  intros i l F. induction F as [|p l P F IH]; [constructor|]. destruct p; try contradiction; cbn [at_ map]; constructor; auto. now apply textual_calm.
Qed.
Section Orderly.
Variable upper : char -> str.
Variable udigit : char -> bool.
Variable config : md_config.
Lemma textual_flowing : forall l, Forall textual (flowing udigit l).
Proof.
  induction l as [|[w|] l IH]; cbn [flowing]; [constructor|constructor; [exact I|exact IH]|]. constructor; [|exact IH].
  destruct l as [|[w|] l]; try exact I. destruct (unsafe udigit w); exact I.
Qed.
Lemma textual_flat : forall A (f : A -> list piece) l, Forall (fun x => Forall textual (f x)) l -> Forall textual (flat_map f l).
Proof. intros A f l F. induction F; cbn; [constructor|]. apply Forall_app; auto. Qed.
Lemma textual_inline : forall wrap i, Forall textual (inline_view udigit wrap i).
Proof.
  intros wrap i. induction i using inline_ind'; cbn [inline_view]; try (destruct im).
  2-13: repeat first [exact I | apply Forall_nil | apply Forall_cons | apply Forall_app; split | apply textual_flat; assumption
    | match goal with |- context [match ?t with Some _ => _ | None => _ end] => destruct t
      | |- context [if ?t then _ else _] => destruct t end].
  destruct wrap; [apply textual_flowing|]. unfold fixed. apply Forall_map, Forall_forall. intros [w|] _; exact I.
Qed.
Lemma textual_inlines : forall wrap l, Forall textual (inlines_view udigit wrap l).
Proof. intros wrap l. apply textual_flat, Forall_forall. intros i _. apply textual_inline. Qed.
Lemma orderly_calm_app : forall a b, orderly a -> orderly b -> calm b = true -> orderly (a ++ b).
Proof. intros a b A B C. apply orderly_app. auto. Qed.
Lemma textual_separator : forall b, Forall textual (separator config b).
Proof. intros []; cbn [separator]; try (destruct (md_empty_line_before_list config)); repeat constructor. Qed.
Lemma separated_orderly : forall i l, Forall (fun x : block * pieces => orderly (snd x)) l -> orderly (separated config i l) /\ calm (separated config i l) = true.
Proof.
  intros i l F. induction F as [|[b ps] l P F [IH1 IH2]]; [split; [constructor|reflexivity]|]. cbn [separated snd] in *. split.
  - apply orderly_app. split; [apply textual_orderly, textual_separator|]. split; [now apply orderly_calm_app|].
    intro L. exfalso. revert L. destruct b; cbn [separator]; try (destruct (md_empty_line_before_list config)); discriminate.
  - destruct b; cbn [separator]; try (destruct (md_empty_line_before_list config)); reflexivity.
Qed.
Lemma blocks_orderly : forall i l, Forall (fun x : block * pieces => orderly (snd x)) l -> orderly (blocks_pieces config i l).
Proof.
  intros i l F. destruct F as [|[b ps] l P F]; [constructor|]. cbn [blocks_pieces snd] in *. destruct (separated_orderly i l F). now apply orderly_calm_app.
Qed.
Lemma items_orderly : forall i kind l k, Forall (fun x : option task_state * pieces => orderly (snd x)) l ->
  orderly (item_pieces config i k kind l) /\ (0 < k -> calm (item_pieces config i k kind l) = true).
Proof.
  intros i kind l k F. revert k. induction F as [|[t ps] l P F IH]; intros k; cbn [item_pieces snd] in *; [split; [constructor|reflexivity]|].
  destruct (IH (S k)) as [H1 H2]. specialize (H2 ltac:(lia)). split.
  - set (x := [Word (rep (md_spaces_before_list_item config) c_sp); Word (marker kind k); Word [c_sp]] ++ task_view t).
    assert (L : looks (at_ i x) = false) by (unfold x; destruct t as [[|]|]; reflexivity).
    assert (X : orderly (at_ i x ++ ps ++ item_pieces config i (S k) kind l)).
    { apply orderly_app. split; [apply textual_orderly; unfold x; destruct t as [[|]|]; repeat constructor|]. split; [now apply orderly_calm_app|]. congruence. }
    destruct (k =? 0); [exact X|]. cbn [app]. now constructor.
  - intro K. assert ((k =? 0) = false) as -> by (apply Nat.eqb_neq; lia). reflexivity.
Qed.
Lemma block_orderly : forall b i, orderly (block_view upper udigit config i b).
Proof.
  assert (G : forall i l, Forall (fun b => forall i, orderly (block_view upper udigit config i b)) l ->
    orderly (blocks_pieces config i (map (fun x => (x, block_view upper udigit config i x)) l))).
  { intros i l F. apply blocks_orderly, Forall_map. eapply Forall_impl; [|exact F]. intros b H. apply H. }
  induction b using block_ind'; intro i; cbn [block_view]; try (repeat constructor; fail).
  - apply textual_orderly, textual_inlines.
  - apply textual_orderly. destruct h as [[n|s] c]; cbn [heading_view]; repeat (apply Forall_cons; [exact I|]).
    + apply textual_inlines.
    + apply Forall_app. split; [apply textual_inlines|repeat constructor].
  - constructor; [now apply G|constructor].
  - apply items_orderly, Forall_map. eapply Forall_impl; [|exact H]. intros it F. now apply G.
  - apply textual_orderly. destruct c as [[|info] s]; cbn [code_view]; repeat constructor.
  - apply textual_orderly. unfold definition_view. repeat (apply Forall_app; split); try apply textual_inlines; repeat constructor.
  - destruct (t_rows t); repeat constructor.
  - constructor. now apply G.
  - constructor. destruct bs; [constructor|]. constructor; [now apply G|constructor].
Qed.
Lemma document_orderly : forall d, orderly (document_view upper udigit config d).
Proof. intro d. apply blocks_orderly, Forall_map, Forall_forall. intros b _. apply block_orderly. Qed.
End Orderly.

Theorem greedy : forall uwidth upper udigit big config d o, render_markdown uwidth upper udigit big d config = Some o ->
  o = layout uwidth (md_width config) (document_view upper udigit config d).
Proof.
  intros uwidth upper udigit big config d o E. unfold render_markdown, render in E.
  destruct (best uwidth (md_width config) 0 Break (md_blocks uwidth upper udigit big config (d_blocks d)) [] 0) as [[o' p]|] eqn:B; [|discriminate]. injection E as <-.
  assert (D : Den uwidth (md_width config) 0 (md_blocks uwidth upper udigit big config (d_blocks d)) (document_view upper udigit config d)).
  { apply map_blocks. apply Forall_forall. intros b _. now apply Den_block. }
  destruct D as [N|[D _]]; [now rewrite N in B|].
  destruct (den_lay _ _ _ _ _ D (document_orderly upper udigit config d)) as [H _]. apply (H _ _ _ _ _ 0) in B.
  - unfold layout. rewrite <- lay_out. cbn [rind] in B. now rewrite B.
  - intros _ q L. cbn [fit_rest]. rewrite Nat.add_0_r. destruct (Nat.ltb_spec (md_width config) q); [lia|reflexivity].
Qed.
