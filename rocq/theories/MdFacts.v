(** Facts about the Markdown printer model: documents and their pieces. *)
From Coq Require Import String Lia.
From Verif Require Export SpecMd.
Import ListNotations.
Open Scope list_scope.

(** ** Layouts *)
Definition solid (ind : nat) (ps : pieces) : Prop := exists p ps', ps = (ind, p) :: ps'.
Definition quiet (ps : pieces) : Prop := exists i s ps', ps = ps' ++ [(i, Word s)].

Lemma next_indent_app aft own ps qs : ps <> [] -> next_indent aft own (ps ++ qs) = next_indent None own ps.
Proof. destruct ps as [|[i p] ps]; [congruence|]. reflexivity. Qed.
Lemma next_indent_ne aft own ps : ps <> [] -> next_indent aft own ps = next_indent None own ps.
Proof. destruct ps as [|[i p] ps]; [congruence|]. reflexivity. Qed.

(** All breaks of [pa] are followed by something in [pa], or by [pb], which
    starts where [pa] expects. *)
Definition meets (ind aft : option nat) (pa pb : pieces) : Prop :=
  quiet pa \/ pa = [] \/ (forall own, next_indent aft own pb = next_indent ind own []).
Lemma meets_tail ind aft x pa pb : meets ind aft (x :: pa) pb -> meets ind aft pa pb.
Proof.
  unfold meets. intros [(i & s & l & E)|[E|E]]; [|discriminate|auto].
  destruct l as [|y l]; injection E as -> E; [auto|]. left. now exists i, s, l.
Qed.
Lemma meets_next ind aft i p pa pb : (forall s, p <> Word s) -> meets ind aft ((i, p) :: pa) pb ->
  next_indent aft i (pa ++ pb) = next_indent ind i pa.
Proof.
  intros N M. destruct pa as [|[j q] pa]; [|reflexivity]. cbn [app].
  destruct M as [(k & s & l & E)|[E|E]]; [|discriminate|auto].
  destruct l as [|? [|]]; try discriminate. injection E as -> ->. exfalso; eapply N; reflexivity.
Qed.
Lemma laid_app ind aft pa pb oa ob : laid ind pa oa -> laid aft pb ob -> meets ind aft pa pb ->
  laid aft (pa ++ pb) (oa ++ ob).
Proof.
  intros A B. induction A; intro M; cbn [app]; auto; pose proof (meets_tail _ _ _ _ _ M) as M';
    rewrite <- ?app_assoc; cbn [app]; try (constructor; auto; fail).
  - rewrite <- (meets_next aft0 aft i Soft ps pb) by (auto; discriminate). constructor. auto.
  - rewrite <- (meets_next aft0 aft i Newline ps pb) by (auto; discriminate). constructor. auto.
Qed.

(** ** Documents and their pieces *)
Section Den.
Variable uwidth : str -> nat.
Variable cw : nat. (* the configured width *)
Definition rind (rest : list cmd) : option nat := match rest with (i, _, _) :: _ => Some i | [] => None end.

Inductive den : nat -> doc -> pieces -> Prop :=
| den_nil : forall i, den i DNil []
| den_text : forall i s, den i (DText s) [(i, Word s)]
| den_append : forall i a b pa pb, den i a pa -> den i b pb -> solid i pb \/ (pb <> [] /\ quiet pa) ->
    den i (DAppend a b) (pa ++ pb)
| den_soft : forall i, den i softline [(i, Soft)]
| den_group : forall i d ps, den i d ps -> den i (DGroup d) ps
| den_nest : forall i n d ps, den (i + n) d ps -> den i (DNest n d) ps
| den_line : forall i, den i DHardline [(i, Newline)]
| den_quote : forall i c d ps, md_width c = cw -> den 0 d ps -> den i (DColumn (quote_at uwidth c d)) [(i, Quoted ps)]
| den_alert : forall i d ps m t, den 0 d ps -> render uwidth 80 d = Some t ->
    den i (intersperse (map DText (m :: map alert_line (lines t))) DHardline) [(i, Word m); (i, Alerted ps)].

Definition never (d : doc) : Prop := forall w i m rest pos, best uwidth w i m d rest pos = None.

Lemma alert_line_text l : alert_line l = alert_text l.
Proof. unfold alert_line, alert_text. destruct l; reflexivity. Qed.

(** lines of texts between hard line breaks *)
Lemma fold_append_text l : forall d, d <> DNil ->
  fold_left (fun acc y => append (append acc DHardline) y) (map DText l) d
  = fold_left (fun acc y => DAppend (DAppend acc DHardline) y) (map DText l) d.
Proof.
  induction l as [|x l IH]; intros d N; cbn [fold_left map]; [reflexivity|].
  replace (append (append d DHardline) (DText x)) with (DAppend (DAppend d DHardline) (DText x)).
  - apply IH. discriminate.
  - destruct d; try congruence; reflexivity.
Qed.
Lemma best_lines w i m l : forall d rest pos o p,
  (forall rest, best uwidth w i m d rest pos = Some (o, p)) ->
  best uwidth w i m (fold_left (fun acc y => DAppend (DAppend acc DHardline) y) (map DText l) d) rest pos
  = Some (o ++ flat_map (fun x => break_to i ++ x) l,
        match l with [] => p | _ => i + text_len uwidth (last l []) end).
Proof.
  induction l as [|x l IH]; intros d rest pos o p H.
  - cbn. rewrite app_nil_r. apply H.
  - cbn [map fold_left].
    rewrite (IH _ _ _ (o ++ break_to i ++ x) (i + text_len uwidth x)).
    + cbn [flat_map]. rewrite <- !app_assoc. destruct l; reflexivity.
    + intro r. cbn [best]. rewrite H. cbn [app]. now rewrite <- app_assoc.
Qed.
Lemma best_text_lines w i m x l rest pos :
  best uwidth w i m (intersperse (map DText (x :: l)) DHardline) rest pos
  = Some (x ++ flat_map (fun x => break_to i ++ x) l,
      match l with [] => pos + text_len uwidth x | _ => i + text_len uwidth (last l []) end).
Proof.
  cbn [map intersperse]. rewrite fold_append_text by discriminate.
  apply best_lines. reflexivity.
Qed.
Lemma join_flat sep x l : join sep (x :: l) = x ++ flat_map (fun y => sep ++ y) l.
Proof.
  revert x. induction l as [|y l IH]; intro x; cbn [join flat_map].
  - now rewrite app_nil_r.
  - cbn [join] in IH. rewrite IH. now rewrite <- app_assoc.
Qed.

Lemma den_best i d ps : den i d ps -> forall w m rest pos o p,
  best uwidth w i m d rest pos = Some (o, p) -> laid (rind rest) ps o.
Proof.
  induction 1; intros w' m' rest pos o p E; cbn [best] in E.
  - injection E as <- <-. constructor.
  - injection E as <- <-. rewrite <- (app_nil_r s) at 2. repeat constructor.
  - destruct (best uwidth w' i m' a _ pos) as [[oa p1]|] eqn:Ea; [|discriminate].
    destruct (best uwidth w' i m' b rest p1) as [[ob p2]|] eqn:Eb; [|discriminate].
    injection E as <- <-. eapply laid_app; [eapply IHden1; eassumption|eapply IHden2; eassumption|].
    destruct H1 as [(q & l & ->)|[_ Q]]; [right; right; reflexivity|left; exact Q].
  - assert (S : laid (rind rest) [(i, Soft)] [c_sp]) by repeat constructor.
    assert (B : laid (rind rest) [(i, Soft)] (break_to (match rest with (i0, _, _) :: _ => i0 | [] => i end))).
    { rewrite <- (app_nil_r (break_to _)).
      replace (match rest with (i0, _, _) :: _ => i0 | [] => i end) with (next_indent (rind rest) i [])
        by (destruct rest as [|[[? ?] ?] ?]; reflexivity). repeat constructor. }
    unfold softline, group, line, space in E. cbn [best] in E.
    destruct m'; [destruct (fitting uwidth w' _ rest pos)|]; try discriminate; injection E as <- <-; auto.
  - destruct m'; [destruct (fitting uwidth w' d rest pos)|]; try discriminate; eauto.
  - eauto.
  - injection E as <- <-. rewrite <- (app_nil_r (c_nl :: _)).
    replace (match rest with (i0, _, _) :: _ => i0 | [] => i end) with (next_indent (rind rest) i [])
      by (destruct rest as [|[[? ?] ?] ?]; reflexivity). exact (laid_newline _ i [] [] (laid_nil _)).
  - unfold quote_at in E. destruct (md_width c <? pos + 2); [discriminate|].
    destruct (render uwidth _ d) as [t|] eqn:R; [|discriminate].
    assert (L : laid None ps t).
    { unfold render in R. destruct best as [[o' p']|] eqn:B; [|discriminate]. injection R as <-.
      exact (IHden _ _ _ _ _ _ B). }
    replace (map (fun d0 => append (DText (lit "> ")) (DText d0)) (lines t))
      with (map (fun l => DAppend (DText (lit "> ")) (DText l)) (lines t)) in E by reflexivity.
    assert (O : o = join (break_to i) (map (fun l => lit "> " ++ l) (lines t))).
    { clear - E. destruct (lines t) as [|x l]. { cbn in E. now injection E as <- _. }
      cbn [map intersperse] in E. cbn [map]. rewrite join_flat.
      assert (G : forall l d, d <> DNil -> fold_left (fun acc y => append (append acc DHardline) y) (map (fun l => DAppend (DText (lit "> ")) (DText l)) l) d
        = fold_left (fun acc y => DAppend (DAppend acc DHardline) y) (map (fun l => DAppend (DText (lit "> ")) (DText l)) l) d).
      { clear. induction l as [|y l IH]; intros d N; cbn [fold_left map]; [reflexivity|].
        rewrite <- IH by discriminate. f_equal. destruct d; try congruence; reflexivity. }
      rewrite G in E by discriminate. clear G.
      assert (K : forall l d rest pos o p, best uwidth w' i m'
          (fold_left (fun acc y => DAppend (DAppend acc DHardline) y) (map (fun l => DAppend (DText (lit "> ")) (DText l)) l) d) rest pos = Some (o, p) ->
          exists o1 p1 rest1, best uwidth w' i m' d rest1 pos = Some (o1, p1) /\ o = o1 ++ flat_map (fun y => break_to i ++ y) (map (fun l => lit "> " ++ l) l)).
      { clear. induction l as [|y l IH]; intros d rest pos o p E; cbn [fold_left map flat_map] in *.
        - exists o, p, rest. split; auto. now rewrite app_nil_r.
        - apply IH in E as (o1 & p1 & r1 & E & ->). cbn [best] in E.
          destruct (best uwidth w' i m' d _ pos) as [[o2 p2]|] eqn:E2; [|discriminate].
          injection E as <- <-. do 3 eexists. split; [exact E2|]. rewrite <- !app_assoc. reflexivity. }
      apply K in E as (o1 & p1 & r1 & E & ->). cbn [best] in E. injection E as <- <-. reflexivity. }
    subst o. rewrite <- (app_nil_r (join _ _)). constructor; auto. constructor.
  - rewrite best_text_lines in E. injection E as <- _. constructor.
    assert (L : laid None ps t).
    { unfold render in H0. destruct (best uwidth 80 0 Break d [] 0) as [[o' p']|] eqn:B; [|discriminate]. injection H0 as <-.
      exact (IHden _ _ _ _ _ _ B). }
    match goal with |- laid _ _ ?z => change z with (flat_map (fun x => break_to i ++ x) (map alert_line (lines t))) end.
    replace (flat_map (fun x => break_to i ++ x) (map alert_line (lines t)))
      with (flat_map (fun l => break_to i ++ alert_text l) (lines t) ++ []).
    + constructor; auto. constructor.
    + rewrite app_nil_r, flat_map_concat_map, flat_map_concat_map, map_map. f_equal. apply map_ext.
      intro l. now rewrite alert_line_text.
Qed.

(** ** Building documents *)
Definition Den (i : nat) (d : doc) (ps : pieces) : Prop :=
  never d \/ (den i d ps /\ (ps = [] <-> d = DNil)).

Lemma append_spec a b : (a = DNil /\ append a b = b) \/ (b = DNil /\ append a b = a)
  \/ (a <> DNil /\ b <> DNil /\ append a b = DAppend a b).
Proof.
  destruct a; auto; right; (destruct b; [left; split; reflexivity|..]; right; repeat split; discriminate).
Qed.
Lemma never_nil : ~ never DNil.
Proof. intro N. specialize (N 0 0 Break [] 0). discriminate. Qed.
Lemma never_append_l a b : never a -> never (append a b).
Proof.
  intro N. destruct (append_spec a b) as [[-> _]|[[_ ->]|(_ & _ & ->)]]; auto. { now apply never_nil in N. }
  intros w i m rest pos. cbn [best]. now rewrite N.
Qed.
Lemma never_append_r a b : never b -> never (append a b).
Proof.
  intro N. destruct (append_spec a b) as [[_ ->]|[[-> _]|(_ & _ & ->)]]; auto. { now apply never_nil in N. }
  intros w i m rest pos. cbn [best]. destruct best as [[? ?]|]; auto. now rewrite N.
Qed.
Lemma never_group d : never d -> never (group d).
Proof.
  intro N. destruct d; auto; intros w i m rest pos; cbn [group];
  change (best uwidth w i m (DGroup ?x) rest pos) with
    (match m with Flat => best uwidth w i Flat x rest pos | Break =>
      match fitting uwidth w x rest pos with FYes | FGo _ => best uwidth w i Flat x rest pos | FNo => best uwidth w i Break x rest pos | FPanic => None end end);
  rewrite !N; destruct m; auto; destruct fitting; auto.
Qed.
Lemma never_nest n d : never d -> never (nest n d).
Proof.
  intro N. destruct d; auto; (destruct n; [exact N|]; intros w i m rest pos; cbn [nest];
  change (best uwidth w i m (DNest ?n ?x) rest pos) with (best uwidth w (i + n) m x rest pos); apply N).
Qed.

Lemma Den_nil i : Den i DNil [].
Proof. right. split; [constructor|tauto]. Qed.
Lemma Den_text i s : Den i (DText s) [(i, Word s)].
Proof. right. split; [constructor|split; discriminate]. Qed.
Lemma Den_line i : Den i DHardline [(i, Newline)].
Proof. right. split; [constructor|split; discriminate]. Qed.
Lemma Den_soft i : Den i softline [(i, Soft)].
Proof. right. split; [constructor|split; discriminate]. Qed.
Lemma Den_panic i ps : Den i DPanic ps.
Proof. left. intros ? ? ? ? ?. reflexivity. Qed.
Lemma Den_append i a b pa pb : Den i a pa -> Den i b pb ->
  pb = [] \/ solid i pb \/ quiet pa -> Den i (append a b) (pa ++ pb).
Proof.
  intros [A|[A A']] [B|[B B']] M.
  - left; now apply never_append_l.
  - left; now apply never_append_l.
  - left; now apply never_append_r.
  - right.
    destruct (append_spec a b) as [[-> ->]|[[-> ->]|(NA & NB & ->)]].
    { rewrite (proj2 A' eq_refl). now split. }
    { rewrite (proj2 B' eq_refl), app_nil_r. now split. }
    assert (pb <> []) by tauto.
    split.
    + constructor; auto. destruct M as [M|[M|M]]; [congruence|now left|now right].
    + split; [|discriminate]. intro E. apply app_eq_nil in E. tauto.
Qed.
Lemma Den_group i d ps : Den i d ps -> Den i (group d) ps.
Proof.
  intros [N|[A B]]; [left; now apply never_group|right].
  destruct d; cbn [group]; try (split; [now constructor|split; [intro E; apply B in E; discriminate|discriminate]]); auto.
Qed.
Lemma Den_nest i n d ps : Den (i + n) d ps -> Den i (nest n d) ps.
Proof.
  intros [N|[A B]]; [left; now apply never_nest|right].
  destruct n. { rewrite Nat.add_0_r in A. destruct d; cbn [nest]; now split. }
  destruct d; cbn [nest]; try (split; [now constructor|split; [intro E; apply B in E; discriminate|discriminate]]); auto.
  rewrite (proj2 B eq_refl). split; [constructor|tauto].
Qed.

Lemma Den_render d ps w o : Den 0 d ps -> render uwidth w d = Some o -> laid None ps o.
Proof.
  unfold render. intros [N|[A _]] E.
  - now rewrite N in E.
  - destruct best as [[o' p]|] eqn:B; [|discriminate]. injection E as <-. exact (den_best _ _ _ A _ _ _ _ _ _ B).
Qed.
End Den.
