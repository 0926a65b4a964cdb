(** Rendering is compositional: facts. *)
From Coq Require Import String Lia.
From Verif Require Export SpecJoin FillFacts.
Import ListNotations.
Open Scope list_scope.

(** ** Documents at whose end no line break depends on what follows *)
Fixpoint noend (d : doc) : Prop :=
  match d with
  | DHardline => False
  | DAppend _ b => noend b
  | DNest _ d' | DGroup d' => noend d'
  | DFlatAlt b f => noend b /\ noend f
  | DColumn f => forall n, noend (f n)
  | _ => True
  end.
Fixpoint okend (i : nat) (d : doc) : Prop :=
  match d with
  | DHardline => i = 0
  | DAppend _ b => okend i b
  | DNest n d' => okend (i + n) d'
  | DGroup d' => okend i d'
  | DFlatAlt b f => okend i b /\ okend i f
  | DColumn f => forall n, okend i (f n)
  | _ => True
  end.
Lemma noend_okend : forall d i, noend d -> okend i d.
Proof. induction d; intros i0 N; cbn in *; auto; try contradiction. destruct N. auto. Qed.
Definition firm (d : doc) : Prop := d <> DNil /\ noend d.
Lemma firm_append : forall a b, firm b -> firm (append a b).
Proof. intros a b [N E]. destruct a, b; try congruence; (split; [discriminate|exact E]). Qed.
Lemma okend_append : forall i a b, okend i a -> okend i b -> okend i (append a b).
Proof. intros i a b A B. destruct a, b; assumption. Qed.
Lemma append_some : forall a b, a <> DNil -> append a b <> DNil.
Proof. intros a b N. destruct a, b; (congruence || discriminate). Qed.

Section Join.
Variable uwidth : str -> nat.
Variable width : nat.
Local Notation best := (best uwidth width).
Local Notation fit_rest := (fit_rest uwidth width).
Local Notation run := (run uwidth width).
Definition hd_ind (rest : list cmd) : option nat := match rest with [] => None | (i, _, _) :: _ => Some i end.

Lemma best_same : forall d ind m rest rest' pos, (forall p, fit_rest rest p = fit_rest rest' p) -> hd_ind rest = hd_ind rest' ->
  best ind m d rest pos = best ind m d rest' pos.
Proof.
  induction d; intros ind m rest rest' pos F H0; cbn [Pretty.best]; auto.
  - rewrite (IHd1 ind m _ ((ind, m, d2) :: rest') pos); [|cbn; intro p; destruct (fit _ _ Break d2 p); auto|reflexivity].
    destruct (best ind m d1 _ pos) as [[s p]|]; [|reflexivity]. now rewrite (IHd2 ind m rest rest' p F H0).
  - destruct m; auto.
  - destruct m; [|auto]. replace (fitting uwidth width d rest pos) with (fitting uwidth width d rest' pos) by (unfold fitting; destruct (fit _ _ Flat d pos); auto).
    destruct (fitting uwidth width d rest' pos); auto.
  - destruct rest as [|[[? ?] ?] ?], rest' as [|[[? ?] ?] ?]; cbn in H0; congruence.
Qed.
Lemma best_end : forall d ind m rest pos, okend ind d -> (forall p, fit_rest rest p = FYes) -> hd_ind rest = Some 0 ->
  best ind m d rest pos = best ind m d [] pos.
Proof.
  induction d; intros ind m rest pos E F H0; cbn [Pretty.best]; cbn [okend] in E; auto.
  - rewrite (best_same d1 ind m _ [(ind, m, d2)] pos); [|cbn; intro p; destruct (fit _ _ Break d2 p); auto|reflexivity].
    destruct (best ind m d1 _ pos) as [[s p]|]; [|reflexivity]. now rewrite (IHd2 ind m rest p E F H0).
  - destruct E as [E1 E2]. destruct m; auto.
  - destruct m; [|auto]. replace (fitting uwidth width d rest pos) with (fitting uwidth width d [] pos) by (unfold fitting; destruct (fit _ _ Flat d pos); cbn; auto).
    destruct (fitting uwidth width d [] pos); auto.
  - subst ind. destruct rest as [|[[i ?] ?] ?]; cbn in H0; congruence.
Qed.
Lemma run_app : forall l1 l2 rest pos, run (l1 ++ l2) rest pos =
  match run l1 (pend l2 ++ rest) pos with
  | Some (s, p) => match run l2 rest p with Some (s', p') => Some (s ++ s', p') | None => None end
  | None => None end.
Proof.
  induction l1 as [|d l1 IH]; intros l2 rest pos.
  - cbn [app FillFacts.run]. destruct (run l2 rest pos) as [[s p]|]; reflexivity.
  - cbn [app FillFacts.run]. unfold pend. rewrite map_app, <- app_assoc. fold (pend l1). fold (pend l2). destruct (best 0 Break d _ pos) as [[s p]|]; [|reflexivity].
    rewrite IH. destruct (run l1 _ p) as [[s1 p1]|]; [|reflexivity]. destruct (run l2 rest p1) as [[s2 p2]|]; [|reflexivity]. now rewrite app_assoc.
Qed.
Lemma run_same : forall l rest rest' pos, (forall p, fit_rest rest p = fit_rest rest' p) -> hd_ind rest = hd_ind rest' ->
  run l rest pos = run l rest' pos.
Proof.
  induction l as [|d l IH]; intros rest rest' pos F H0; [reflexivity|]. cbn [FillFacts.run].
  rewrite (best_same d 0 Break (pend l ++ rest) (pend l ++ rest') pos).
  - destruct (best 0 Break d _ pos) as [[s p]|]; [|reflexivity]. now rewrite (IH rest rest' p F H0).
  - clear -F. unfold pend. induction l as [|x l IH]; [exact F|]. intro p. cbn [map app Pretty.fit_rest]. destruct (fit uwidth width Break x p); auto.
  - destruct l; [exact H0|reflexivity].
Qed.
(** the last of the documents decides *)
Lemma run_end : forall l rest pos, at_last (okend 0) l -> (forall p, fit_rest rest p = FYes) -> hd_ind rest = Some 0 ->
  run l rest pos = run l [] pos.
Proof.
  intros l rest pos E F H0. destruct l as [|x l0] using rev_ind; [reflexivity|]. clear IHl0. rewrite !run_snoc.
  assert (EX : okend 0 x). { clear -E. induction l0 as [|y l0 IH]; [exact E|]. apply IH. destruct l0; exact E. }
  rewrite (run_same l0 ((0, Break, x) :: rest) [(0, Break, x)]).
  - destruct (run l0 _ pos) as [[s p]|]; [|reflexivity]. now rewrite (best_end x 0 Break rest p EX F H0).
  - intro p. cbn [Pretty.fit_rest]. destruct (fit uwidth width Break x p); auto.
  - reflexivity.
Qed.

(** ** Sequences with empty documents *)
Definition nonnil (d : doc) : bool := match d with DNil => false | _ => true end.
Definition solids (l : list doc) : list doc := filter nonnil l.
Lemma fold_append : forall l x, x <> DNil -> fold_left append l x = fold_left DAppend (solids l) x.
Proof.
  induction l as [|y l IH]; intros x N; [reflexivity|]. cbn [fold_left solids filter]. destruct y eqn:E; cbn [nonnil]; cbn [fold_left];
    try (rewrite IH; [f_equal; destruct x; (congruence || reflexivity)|destruct x; (congruence || discriminate)]).
Qed.
Lemma best_concat : forall l rest pos, best 0 Break (fold_left append l DNil) rest pos = run (solids l) rest pos.
Proof.
  induction l as [|y l IH]; intros rest pos; [reflexivity|]. cbn [fold_left solids filter]. change (append DNil y) with y.
  destruct (nonnil y) eqn:E.
  - rewrite fold_append by (destruct y; discriminate). rewrite best_fold. reflexivity.
  - destruct y; try discriminate E. apply IH.
Qed.
Lemma solids_app : forall a b, solids (a ++ b) = solids a ++ solids b.
Proof. intros. apply filter_app. Qed.
End Join.
