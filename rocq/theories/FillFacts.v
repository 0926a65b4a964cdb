(** The layout of a text is the greedy one. *)
From Coq Require Import String Lia.
From Verif Require Export SpecFill RoundLaid.
Import ListNotations.
Open Scope list_scope.

Section Fill.
Variable uwidth : str -> nat.
Variable udigit : char -> bool.
Variable width : nat.
Local Notation best := (best uwidth width).
Local Notation cols := (columns uwidth).
Local Notation lcols := (line_columns uwidth).

(** ** Sequences of documents *)
Definition pend (l : list doc) : list cmd := map (fun d => (0, Break, d)) l.
Fixpoint run (l : list doc) (rest : list cmd) (pos : nat) : option (str * nat) :=
  match l with
  | [] => Some ([], pos)
  | d :: l' => match best 0 Break d (pend l' ++ rest) pos with
               | Some (s, p) => match run l' rest p with Some (s', p') => Some (s ++ s', p') | None => None end
               | None => None
               end
  end.
Lemma run_snoc : forall l y rest pos, run (l ++ [y]) rest pos =
  match run l ((0, Break, y) :: rest) pos with
  | Some (s, p) => match best 0 Break y rest p with Some (s', p') => Some (s ++ s', p') | None => None end
  | None => None end.
Proof.
  induction l as [|d l IH]; intros y rest pos.
  - cbn [app run pend map]. destruct (best 0 Break y rest pos) as [[s p]|]; [|reflexivity]. now rewrite app_nil_r.
  - cbn [app run]. unfold pend. rewrite map_app, <- app_assoc. cbn [map app]. destruct (best 0 Break d _ pos) as [[s p]|]; [|reflexivity].
    rewrite IH. destruct (run l _ p) as [[s1 p1]|]; [|reflexivity]. destruct (best 0 Break y rest p1) as [[s2 p2]|]; [|reflexivity]. now rewrite app_assoc.
Qed.
Lemma best_fold : forall l x rest pos, best 0 Break (fold_left DAppend l x) rest pos = run (x :: l) rest pos.
Proof.
  intros l x. induction l as [|y l IH] using rev_ind; intros rest pos.
  - cbn [fold_left run pend map app]. destruct (best 0 Break x rest pos) as [[s p]|]; [|reflexivity]. now rewrite app_nil_r.
  - rewrite fold_left_app. cbn [fold_left]. change (x :: l ++ [y]) with ((x :: l) ++ [y]). rewrite run_snoc. cbn [Pretty.best]. rewrite IH. reflexivity.
Qed.

(** ** Words *)
Definition glue_doc (x : str) : doc := if unsafe udigit x then space else softline.
Definition word_docs (ws : list str) : list doc := flat_map (fun x => [glue_doc x; DText x]) ws.
Lemma go_docs : forall ws acc, acc <> DNil -> safe_text_go udigit (between ws) acc = fold_left DAppend (word_docs ws) acc.
Proof.
  induction ws as [|x ws IH]; intros acc H; [reflexivity|]. change (between (x :: ws)) with (None :: Some x :: between ws). cbn [safe_text_go find_next_word].
  change (word_docs (x :: ws)) with (glue_doc x :: DText x :: word_docs ws). cbn [fold_left].
  replace (if is_safe_line_break_before udigit x then softline else space) with (glue_doc x) by (unfold glue_doc, is_safe_line_break_before, unsafe; now destruct (is_markdown_syntax_at_line_start udigit x)).
  assert (E1 : append acc (glue_doc x) = DAppend acc (glue_doc x)) by (unfold glue_doc; destruct acc, (unsafe udigit x); try reflexivity; congruence).
  rewrite E1. change (append (DAppend acc (glue_doc x)) (DText x)) with (DAppend (DAppend acc (glue_doc x)) (DText x)). apply IH. discriminate.
Qed.
Fixpoint glue (ws : list str) : list str :=
  match ws with [] => [] | x :: ws' => if unsafe udigit x then x :: glue ws' else [] end.
Definition glue_cols (ws : list str) : nat := list_sum (map (fun x => S (cols x)) (glue ws)).
Lemma fit_glue : forall ws pos, pos <= width -> fit_rest uwidth width (pend (word_docs ws)) pos = if width <? pos + glue_cols ws then FNo else FYes.
Proof.
  induction ws as [|x ws IH]; intros pos H.
  - change (glue_cols []) with 0. rewrite Nat.add_0_r. change (fit_rest _ _ _ _) with FYes. destruct (Nat.ltb_spec width pos); [lia|reflexivity].
  - change (word_docs (x :: ws)) with (glue_doc x :: DText x :: word_docs ws). unfold pend. cbn [map fit_rest]. unfold glue_doc, glue_cols. cbn [glue].
    destruct (unsafe udigit x).
    + cbn [fit space]. change (text_len uwidth [c_sp]) with 1. cbn [map list_sum fold_right]. fold (list_sum (map (fun y => S (cols y)) (glue ws))). fold (glue_cols ws).
      destruct (Nat.ltb_spec width (pos + 1)); [destruct (Nat.ltb_spec width (pos + (S (cols x) + glue_cols ws))); [reflexivity|lia]|].
      fold (columns uwidth x). destruct (Nat.ltb_spec width (pos + 1 + cols x)); [destruct (Nat.ltb_spec width (pos + (S (cols x) + glue_cols ws))); [reflexivity|lia]|].
      fold (pend (word_docs ws)). rewrite IH by lia. now replace (pos + (S (cols x) + glue_cols ws)) with (pos + 1 + cols x + glue_cols ws) by lia.
    + cbn [map list_sum fold_right fit softline group line]. rewrite Nat.add_0_r. destruct (Nat.ltb_spec width pos); [lia|reflexivity].
Qed.
Lemma soft_best : forall x ws pos, best 0 Break softline (pend (DText x :: word_docs ws)) pos =
  if width <? pos + (S (cols x) + glue_cols ws) then Some ([c_nl], 0) else Some ([c_sp], pos + 1).
Proof.
  intros x ws pos. unfold softline, line. cbn [group Pretty.best].
  assert (F : fitting uwidth width (DFlatAlt DHardline space) (pend (DText x :: word_docs ws)) pos = if width <? pos + (S (cols x) + glue_cols ws) then FNo else FYes).
  { unfold fitting. cbn [fit space]. change (text_len uwidth [c_sp]) with 1.
    destruct (Nat.ltb_spec width (pos + 1)); [destruct (Nat.ltb_spec width (pos + (S (cols x) + glue_cols ws))); [reflexivity|lia]|].
    unfold pend. cbn [map fit_rest fit]. fold (columns uwidth x). destruct (Nat.ltb_spec width (pos + 1 + cols x)); [destruct (Nat.ltb_spec width (pos + (S (cols x) + glue_cols ws))); [reflexivity|lia]|].
    fold (pend (word_docs ws)). rewrite fit_glue by lia. now replace (pos + (S (cols x) + glue_cols ws)) with (pos + 1 + cols x + glue_cols ws) by lia. }
  rewrite F. destruct (width <? _); reflexivity.
Qed.
Lemma lcols_snoc : forall cur x, cur <> [] -> lcols (cur ++ [x]) = lcols cur + 1 + cols x.
Proof.
  intros cur x H. unfold line_columns. rewrite map_app, list_sum_app, app_length. cbn. destruct cur; [congruence|]. cbn [List.length]. lia.
Qed.
Lemma lcols_glue : forall ws cur, cur <> [] -> lcols (cur ++ glue ws) = lcols cur + glue_cols ws.
Proof.
  induction ws as [|x ws IH]; intros cur H; unfold glue_cols; cbn [glue]; [cbn; rewrite app_nil_r; lia|].
  destruct (unsafe udigit x); [|cbn; rewrite app_nil_r; lia]. change (x :: glue ws) with ([x] ++ glue ws) at 1. rewrite app_assoc, IH by (destruct cur; discriminate).
  rewrite lcols_snoc by exact H. cbn [map list_sum fold_right]. unfold glue_cols, list_sum. lia.
Qed.
Definition plain_word (x : str) : Prop := x <> [] /\ Forall (fun c => is_whitespace c = false) x.
Definition safe_start (ws : list str) : Prop := match ws with [] => True | x :: _ => unsafe udigit x = false end.
Lemma safe_starts : forall ws, Forall plain_word ws -> safe_start ws -> starts_safe udigit ws.
Proof.
  intros [|x ws] F H; [exact I|]. inversion F as [|? ? [N W] _]; subst. intro U. cbn in H. apply (unsafe_iff udigit x N W) in U. congruence.
Qed.
Lemma glue_rest : forall ws, exists r, ws = glue ws ++ r /\ safe_start r.
Proof.
  induction ws as [|x ws (r & E & H)]; [exists []; split; [reflexivity|exact I]|]. cbn [glue]. destruct (unsafe udigit x) eqn:U.
  - exists r. split; [cbn; congruence|exact H].
  - exists (x :: ws). split; [reflexivity|exact U].
Qed.
Lemma glue_unsafe : forall ws, Forall plain_word ws -> Forall (unsafe_word udigit) (glue ws).
Proof.
  induction 1 as [|x ws [N W] F IH]; [constructor|]. cbn [glue]. destruct (unsafe udigit x) eqn:U; constructor; [|exact IH]. now apply (unsafe_iff udigit x N W).
Qed.
Lemma fill_run : forall ws cur, Forall plain_word ws -> cur <> [] ->
  lcols (cur ++ glue ws) <= width \/ unbreakable udigit (cur ++ glue ws) ->
  exists e ls p, ws = e ++ concat ls /\ (exists e', e = glue ws ++ e') /\ safe_start (concat ls) /\
    run (word_docs ws) [] (lcols cur) = Some (flat_map (cons c_sp) e ++ flat_map (fun l => c_nl :: join [c_sp] l) ls, p) /\
    filled uwidth udigit width ((cur ++ e) :: ls).
Proof.
  induction ws as [|x ws IH]; intros cur F N INV.
  - cbn [glue] in INV. exists [], [], (lcols cur). split; [reflexivity|]. split; [exists []; reflexivity|]. split; [exact I|]. split; [reflexivity|].
    rewrite app_nil_r in *. now apply filled_last.
  - inversion F as [|? ? Hx Fw]; subst. change (word_docs (x :: ws)) with (glue_doc x :: DText x :: word_docs ws). unfold glue_doc. cbn [glue] in *.
    destruct (unsafe udigit x) eqn:U.
    + destruct (IH (cur ++ [x])) as (e & ls & p & E1 & (e' & E2) & E3 & E4 & E5); [exact Fw|destruct cur; discriminate|now rewrite <- app_assoc|].
      exists (x :: e), ls, p. split; [cbn; now rewrite E1 at 1|]. split; [exists e'; cbn; congruence|]. split; [exact E3|]. split; [|now rewrite <- app_assoc in E5].
      cbn [run Pretty.best space]. change (text_len uwidth [c_sp]) with 1. fold (columns uwidth x). rewrite lcols_snoc in E4 by exact N. rewrite E4. cbn [flat_map app]. now rewrite <- !app_assoc.
    + rewrite app_nil_r in INV. cbn [run]. rewrite app_nil_r. change (DText x :: word_docs ws) with (DText x :: word_docs ws). rewrite soft_best.
      destruct (Nat.ltb_spec width (lcols cur + (S (cols x) + glue_cols ws))) as [L|L].
      * destruct (IH [x]) as (e & ls & p & E1 & (e' & E2) & E3 & E4 & E5); [exact Fw|discriminate|right; unfold unbreakable; cbn; now apply glue_unsafe|].
        exists [], ((x :: e) :: ls), p. split; [cbn; now rewrite E1 at 1|]. split; [exists []; reflexivity|]. split; [exact U|]. split.
        -- cbn [Pretty.best]. fold (columns uwidth x). replace (lcols [x]) with (0 + cols x) in E4 by (unfold line_columns; cbn; lia). rewrite E4.
           cbn [flat_map app]. rewrite (join_flat [c_sp] x e). cbn [app]. now rewrite <- !app_assoc.
        -- rewrite app_nil_r. assert (Fe : Forall plain_word (x :: e)).
           { constructor; [exact Hx|]. apply Forall_forall. intros y Y. rewrite Forall_forall in Fw. apply Fw. rewrite E1. apply in_or_app. now left. }
           apply filled_more; [exact N|exact INV| |now apply safe_starts|exact E5].
           destruct (glue_rest ws) as (r & R1 & R2). exists (x :: glue ws), e'. split; [cbn; congruence|]. split; [discriminate|]. split; [unfold unbreakable; cbn; now apply glue_unsafe|].
           split.
           ++ apply safe_starts.
              ** apply Forall_forall. intros y Y. rewrite Forall_forall in Fw. apply Fw. rewrite E1, E2. apply in_or_app. left. apply in_or_app. now right.
              ** rewrite R1 in E1 at 1. rewrite E2, <- app_assoc in E1. apply app_inv_head in E1. destruct e' as [|y e']; [exact I|]. subst r. exact R2.
           ++ change (x :: glue ws) with ([x] ++ glue ws). rewrite lcols_glue by discriminate. unfold line_columns at 2. cbn. lia.
      * destruct (IH (cur ++ [x])) as (e & ls & p & E1 & (e' & E2) & E3 & E4 & E5); [exact Fw|destruct cur; discriminate|left; rewrite lcols_glue, lcols_snoc by (assumption || destruct cur; discriminate); lia|].
        exists (x :: e), ls, p. split; [cbn; now rewrite E1 at 1|]. split; [exists (x :: e); reflexivity|]. split; [exact E3|]. split; [|now rewrite <- app_assoc in E5].
        cbn [run Pretty.best]. fold (columns uwidth x). rewrite lcols_snoc in E4 by exact N. rewrite E4. cbn [flat_map app]. now rewrite <- !app_assoc.
Qed.
Lemma plain_word_of : forall w, word w -> plain_word w.
Proof. exact word_white. Qed.
Theorem fill_text : forall w ws t, Forall plain_word (w :: ws) -> tokens t = Some w :: between ws ->
  exists ls, concat ls = w :: ws /\ filled uwidth udigit width ls /\
    render uwidth width (md_inlines udigit true [IText t]) = Some (join [c_nl] (text_lines ls)).
Proof.
  intros w ws t F T. inversion F as [|? ? Hw Fw]; subst.
  destruct (fill_run ws [w]) as (e & ls & p & E1 & _ & _ & E4 & E5); [exact Fw|discriminate|right; unfold unbreakable; cbn; now apply glue_unsafe|].
  exists ((w :: e) :: ls). split; [cbn; now rewrite E1|]. split; [exact E5|].
  unfold md_inlines. cbn [map md_inline]. change (nl_to_sp t) with (nl_to_sp t). rewrite split_with_spaces_tokens, T. unfold safe_text_layout. cbn [safe_text_go].
  change (append DNil (DText w)) with (DText w). rewrite go_docs by discriminate.
  change (concat_docs [fold_left DAppend (word_docs ws) (DText w)]) with (append DNil (fold_left DAppend (word_docs ws) (DText w))). cbn [append]. unfold render. rewrite best_fold.
  cbn [run Pretty.best]. fold (columns uwidth w). replace (0 + cols w) with (lcols [w]) by (unfold line_columns; cbn; lia). rewrite E4. cbn [option_map fst]. f_equal.
  unfold text_lines. cbn [map]. rewrite (join_flat [c_nl]), (join_flat [c_sp] w e), flat_map_map. cbn [app]. now rewrite <- !app_assoc.
Qed.
End Fill.
