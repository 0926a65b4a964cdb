(** The layout of any paragraph is the greedy one. *)
From Coq Require Import String Lia.
From Verif Require Export SpecFill.
From Verif Require Import MdView RoundLaid.
Import ListNotations.
Open Scope list_scope.

(** ** Documents of texts and soft line breaks *)
Inductive soft : doc -> list atom -> Prop :=
| soft_nil : soft DNil []
| soft_text : forall s, soft (DText s) [Solid s]
| soft_line : soft softline [Gap]
| soft_app : forall a b x y, soft a x -> soft b y -> soft (DAppend a b) (x ++ y).
Lemma soft_append : forall a b x y, soft a x -> soft b y -> soft (append a b) (x ++ y).
Proof.
  intros a b x y A B. destruct A.
  - destruct B; cbn [append app]; try constructor; assumption.
  - inversion B; subst; cbn [append]; rewrite ?app_nil_r; try (now constructor); now apply soft_app; constructor.
  - inversion B; subst; cbn [append]; rewrite ?app_nil_r; try (now constructor); now apply soft_app; constructor.
  - inversion B; subst; cbn [append]; rewrite ?app_nil_r; try (apply soft_app; assumption); (apply soft_app; [apply soft_app; assumption|assumption]).
Qed.
Lemma soft_fold : forall A (f : A -> doc) (g : A -> list atom) l acc x, Forall (fun i => soft (f i) (g i)) l -> soft acc x ->
  soft (fold_left append (map f l) acc) (x ++ flat_map g l).
Proof.
  intros A f g l acc x F. revert acc x. induction F as [|i l X F IH]; intros acc x S0; cbn [map fold_left flat_map]; [now rewrite app_nil_r|].
  rewrite app_assoc. apply IH. now apply soft_append.
Qed.
Lemma soft_concat : forall A (f : A -> doc) (g : A -> list atom) l, Forall (fun i => soft (f i) (g i)) l -> soft (concat_docs (map f l)) (flat_map g l).
Proof. intros A f g l F. apply (soft_fold A f g l DNil [] F). constructor. Qed.
Section Rich.
Variable udigit : char -> bool.
Definition unsafe_at := is_markdown_syntax_at_line_start udigit.
Lemma soft_words : forall l acc x, no_double l -> soft acc x -> soft (safe_text_go udigit l acc) (x ++ word_atoms unsafe_at l).
Proof.
  induction l as [|[w|] l IH]; intros acc x N S0; cbn [safe_text_go word_atoms]; [now rewrite app_nil_r| |].
  - change (x ++ Solid w :: word_atoms unsafe_at l) with (x ++ [Solid w] ++ word_atoms unsafe_at l). rewrite app_assoc. apply IH; [destruct l; exact N|]. apply soft_append; [exact S0|constructor].
  - match goal with |- soft _ (x ++ ?a :: ?r) => change (x ++ a :: r) with (x ++ [a] ++ r) end. rewrite app_assoc. apply IH; [destruct l as [|[?|] ?]; exact N || (cbn in N; tauto)|]. apply soft_append; [exact S0|].
    destruct l as [|[w|] l]; cbn [find_next_word]; [constructor| |now elim N]. unfold is_safe_line_break_before. fold (unsafe_at w). destruct (unsafe_at w); constructor.
Qed.
Ltac softs := repeat first [apply soft_append | apply soft_nil | apply soft_text | apply soft_line].
Lemma soft_eq : forall d x y, soft d x -> x = y -> soft d y.
Proof. now intros d x y S0 <-. Qed.
Lemma soft_inline : forall i, soft (md_inline udigit true i) (atoms unsafe_at i).
Proof.
  intros i. induction i using inline_ind'; cbn [md_inline atoms]; try apply soft_text; try apply soft_nil.
  all: try (assert (D := soft_concat _ (md_inline udigit true) (atoms unsafe_at) _ H)).
  - rewrite split_with_spaces_tokens. apply (soft_words _ DNil []); [apply tokens_no_double|constructor].
  - eapply soft_eq; [softs|reflexivity].
  - cbn [link_title link_children link_destination]. destruct t; (eapply soft_eq; [repeat first [exact D | apply soft_append | apply soft_nil | apply soft_text]|cbn [app title_atoms]; rewrite <- ?app_assoc; reflexivity]).
  - assert (D' := soft_concat _ (md_inline udigit true) (atoms unsafe_at) _ H0). cbn [lr_label lr_text].
    destruct (list_eqb inline_eqb l t); (eapply soft_eq; [repeat first [exact D | exact D' | apply soft_append | apply soft_nil | apply soft_text]|cbn [app]; rewrite <- ?app_assoc; reflexivity]).
  - destruct im as [d0 t0 a0]. eapply soft_eq; [softs|reflexivity].
  - eapply soft_eq; [repeat first [exact D | apply soft_append | apply soft_text]|cbn [app]; reflexivity].
  - eapply soft_eq; [repeat first [exact D | apply soft_append | apply soft_text]|cbn [app]; reflexivity].
  - eapply soft_eq; [repeat first [exact D | apply soft_append | apply soft_text]|cbn [app]; reflexivity].
Qed.
Lemma soft_inlines : forall l, soft (md_inlines udigit true l) (flat_map (atoms unsafe_at) l).
Proof. intro l. apply soft_concat. apply Forall_forall. intros i _. apply soft_inline. Qed.
End Rich.

(** ** Laying them out *)
Section Lay.
Variable uwidth : str -> nat.
Variable width : nat.
Local Notation cols := (columns uwidth).
Fixpoint lead (l : list atom) : nat := match l with Solid s :: l' => cols s + lead l' | _ => 0 end.
Fixpoint has_gap (l : list atom) : bool := match l with [] => false | Gap :: _ => true | Solid _ :: l' => has_gap l' end.
Definition lead_to (k : nat) (l : list atom) : nat := lead l + if has_gap l then 0 else k.
Lemma lead_app : forall x y, lead (x ++ y) = lead_to (lead y) x.
Proof. unfold lead_to. induction x as [|[s|] x IH]; intros y; cbn [app lead has_gap]; [reflexivity|rewrite IH; lia|reflexivity]. Qed.
Lemma gap_app : forall x y, has_gap (x ++ y) = has_gap x || has_gap y.
Proof. induction x as [|[s|] x IH]; intros y; cbn; auto. Qed.
Lemma lead_to_app : forall k x y, lead_to k (x ++ y) = lead_to (lead_to k y) x.
Proof. intros k x y. unfold lead_to. rewrite lead_app, gap_app. unfold lead_to. destruct (has_gap x), (has_gap y); cbn; lia. Qed.
Lemma fit_soft : forall d x, soft d x -> forall pos, pos <= width ->
  fit uwidth width Break d pos = if width <? pos + lead x then FNo else if has_gap x then FYes else FGo (pos + lead x).
Proof.
  intros d x S0. induction S0 as [|s| |a b x y A IHa B IHb]; intros pos L.
  - cbn [fit lead has_gap]. rewrite Nat.add_0_r. destruct (Nat.ltb_spec width pos); [lia|reflexivity].
  - cbn [fit lead has_gap]. rewrite Nat.add_0_r. reflexivity.
  - cbn [fit lead has_gap softline group line]. rewrite Nat.add_0_r. destruct (Nat.ltb_spec width pos); [lia|reflexivity].
  - cbn [fit]. rewrite IHa by exact L. rewrite lead_app, gap_app. unfold lead_to. destruct (Nat.ltb_spec width (pos + lead x)) as [H1|H1].
    + destruct (Nat.ltb_spec width (pos + (lead x + if has_gap x then 0 else lead y))); [reflexivity|lia].
    + destruct (has_gap x).
      * destruct (Nat.ltb_spec width (pos + (lead x + 0))); [lia|reflexivity].
      * rewrite IHb by exact H1. cbn [orb]. now rewrite Nat.add_assoc.
Qed.
Definition roomy (rest : list cmd) (k : nat) : Prop :=
  forall p, p <= width -> fit_rest uwidth width rest p = if width <? p + k then FNo else FYes.
Lemma roomy_cons : forall i m b y rest k, soft b y -> roomy rest k -> roomy ((i, m, b) :: rest) (lead_to k y).
Proof.
  intros i m b y rest k S0 R p L. cbn [fit_rest]. rewrite (fit_soft b y S0 p L). unfold lead_to. destruct (Nat.ltb_spec width (p + lead y)) as [H1|H1].
  - destruct (Nat.ltb_spec width (p + (lead y + if has_gap y then 0 else k))); [reflexivity|lia].
  - destruct (has_gap y); [destruct (Nat.ltb_spec width (p + (lead y + 0))); [lia|reflexivity]|]. rewrite R by exact H1. now rewrite Nat.add_assoc.
Qed.
Fixpoint lay (ind k : nat) (l : list atom) (pos : nat) : str * nat :=
  match l with
  | [] => ([], pos)
  | Solid s :: l' => let '(o, p) := lay ind k l' (pos + cols s) in (s ++ o, p)
  | Gap :: l' =>
      if width <? pos + 1 + lead_to k l'
      then let '(o, p) := lay ind k l' ind in (c_nl :: rep ind c_sp ++ o, p)
      else let '(o, p) := lay ind k l' (pos + 1) in (c_sp :: o, p)
  end.
Lemma lay_app : forall ind k x y pos, lay ind k (x ++ y) pos =
  let '(o, p) := lay ind (lead_to k y) x pos in let '(o', p') := lay ind k y p in (o ++ o', p').
Proof.
  intros ind k x y. induction x as [|[s|] x IH]; intros pos; cbn [app lay].
  - destruct (lay ind k y pos); reflexivity.
  - rewrite IH. destruct (lay ind (lead_to k y) x (pos + cols s)) as [o p]. destruct (lay ind k y p) as [o' p']. now rewrite app_assoc.
  - rewrite lead_to_app. destruct (width <? _).
    + rewrite IH. destruct (lay ind (lead_to k y) x ind) as [o p]. destruct (lay ind k y p) as [o' p']. cbn [app]. now rewrite <- app_assoc.
    + rewrite IH. destruct (lay ind (lead_to k y) x (pos + 1)) as [o p]. destruct (lay ind k y p) as [o' p']. reflexivity.
Qed.
Lemma best_soft : forall d x, soft d x -> forall ind rest k pos, roomy rest k ->
  match rest with [] => True | (i, _, _) :: _ => i = ind end ->
  best uwidth width ind Break d rest pos = Some (lay ind k x pos).
Proof.
  intros d x S0. induction S0 as [|s| |a b x y A IHa B IHb]; intros ind rest k pos R E.
  - reflexivity.
  - cbn [best lay]. now rewrite app_nil_r.
  - unfold softline, line. cbn [group best lay].
    assert (F : fitting uwidth width (DFlatAlt DHardline space) rest pos = if width <? pos + 1 + lead_to k [] then FNo else FYes).
    { unfold fitting. cbn [fit space]. change (text_len uwidth [c_sp]) with 1. unfold lead_to. cbn [lead has_gap].
      destruct (Nat.ltb_spec width (pos + 1)); [destruct (Nat.ltb_spec width (pos + 1 + (0 + k))); [reflexivity|lia]|]. rewrite R by assumption. reflexivity. }
    rewrite F. destruct (width <? _).
    + rewrite app_nil_r. destruct rest as [|[[i m] b] rest]; [reflexivity|]. now subst i.
    + reflexivity.
  - cbn [best]. rewrite (IHa ind _ (lead_to k y) pos); [|now apply roomy_cons|reflexivity]. rewrite lay_app.
    destruct (lay ind (lead_to k y) x pos) as [o p]. rewrite (IHb ind rest k p R E). destruct (lay ind k y p). reflexivity.
Qed.

(** ** The lines *)
Lemma segments_cons : forall l, exists s r, segments l = s :: r.
Proof. induction l as [|[s|] l (s0 & r & E)]; cbn; [eauto| |eauto]. rewrite E. eauto. Qed.
Lemma lead_segment : forall l s r, segments l = s :: r -> lead_to 0 l = segment_columns uwidth s.
Proof.
  unfold lead_to. intros l. induction l as [|[s|] l IH]; intros s0 r E; cbn in E.
  - injection E as <- <-. reflexivity.
  - destruct (segments_cons l) as (s1 & r1 & E1). rewrite E1 in E. injection E as <- <-. specialize (IH s1 r1 E1). cbn [lead has_gap]. unfold segment_columns in *. cbn [map list_sum fold_right].
    fold (list_sum (map cols s1)). destruct (has_gap l); lia.
  - injection E as <- <-. reflexivity.
Qed.
Lemma packed_snoc : forall l s, l <> [] -> packed_columns uwidth (l ++ [s]) = packed_columns uwidth l + 1 + segment_columns uwidth s.
Proof. intros l s N. unfold packed_columns. rewrite map_app, list_sum_app, app_length. cbn. destruct l; [congruence|]. cbn [List.length]. lia. Qed.
Lemma packed_extend : forall pre a b, packed_columns uwidth (pre ++ [a ++ b]) = packed_columns uwidth (pre ++ [a]) + segment_columns uwidth b.
Proof. intros. unfold packed_columns, segment_columns. rewrite !map_app, !list_sum_app, !app_length. cbn. rewrite map_app, list_sum_app. lia. Qed.
Lemma lay_packed : forall l pre seg s0 r, segments l = s0 :: r ->
  pre = [] \/ packed_columns uwidth (pre ++ [seg ++ s0]) <= width ->
  exists e ls, r = e ++ concat ls /\ packed uwidth width ((pre ++ [seg ++ s0] ++ e) :: ls) /\
    fst (lay 0 0 l (packed_columns uwidth (pre ++ [seg]))) =
      concat s0 ++ flat_map (fun g => c_sp :: concat g) e ++ flat_map (fun li => c_nl :: join [c_sp] (map (fun g => concat g) li)) ls.
Proof.
  induction l as [|[s|] l IH]; intros pre seg s0 r E P; cbn [segments] in E.
  - injection E as <- <-. exists [], []. split; [reflexivity|]. split; [|reflexivity]. cbn [app]. apply packed_last.
    destruct P as [-> | P]; [right; reflexivity|left]. split; [exact P|]. destruct pre; discriminate.
  - destruct (segments_cons l) as (s1 & r1 & E1). rewrite E1 in E. injection E as <- <-.
    assert (E2 : seg ++ s :: s1 = (seg ++ [s]) ++ s1) by (now rewrite <- app_assoc). rewrite E2 in *.
    destruct (IH pre (seg ++ [s]) s1 r1 E1 P) as (e & ls & A1 & A2 & A3). exists e, ls. split; [exact A1|]. split; [exact A2|].
    cbn [lay]. rewrite packed_extend in A3. unfold segment_columns at 1 in A3. cbn [map list_sum fold_right] in A3. rewrite Nat.add_0_r in A3.
    destruct (lay 0 0 l _) as [o p]. cbn [fst] in *. rewrite A3. cbn [concat]. now rewrite <- app_assoc.
  - injection E as <- <-. rewrite app_nil_r in *. destruct (segments_cons l) as (s1 & r1 & E1). cbn [lay]. rewrite (lead_segment l s1 r1 E1).
    destruct (Nat.ltb_spec width (packed_columns uwidth (pre ++ [seg]) + 1 + segment_columns uwidth s1)) as [H1|H1].
    + destruct (IH [] [] s1 r1 E1 (or_introl eq_refl)) as (e & ls & A1 & A2 & A3). cbn [app] in *. exists [], ((s1 :: e) :: ls).
      split; [cbn [concat app]; now rewrite E1, A1|]. split.
      * cbn [app]. apply packed_more; [|exact H1|exact A2]. destruct P as [-> | P]; [right; reflexivity|left]. split; [exact P|]. destruct pre; discriminate.
      * change (packed_columns uwidth [[]]) with 0 in A3. destruct (lay 0 0 l 0) as [o p]. cbn [fst] in *. rewrite A3. cbn [concat app rep flat_map map]. rewrite join_flat. rewrite flat_map_map. now rewrite <- !app_assoc.
    + destruct (IH (pre ++ [seg]) [] s1 r1 E1) as (e & ls & A1 & A2 & A3).
      { right. cbn [app]. rewrite packed_snoc by (destruct pre; discriminate). exact H1. }
      cbn [app] in *. exists (s1 :: e), ls. split; [cbn [app]; now rewrite E1, A1|]. split.
      * rewrite <- app_assoc in A2. exact A2.
      * rewrite packed_snoc in A3 by (destruct pre; discriminate). unfold segment_columns in A3. cbn [map list_sum fold_right] in A3. rewrite Nat.add_0_r in A3.
        destruct (lay 0 0 l _) as [o p]. cbn [fst] in *. rewrite A3. cbn [concat app flat_map]. now rewrite <- !app_assoc.
Qed.
Theorem fill_rich : forall d x, soft d x -> exists ls, concat ls = segments x /\ packed uwidth width ls /\
  render uwidth width d = Some (packed_text ls).
Proof.
  intros d x S0. destruct (segments_cons x) as (s0 & r & E). destruct (lay_packed x [] [] s0 r E (or_introl eq_refl)) as (e & ls & A1 & A2 & A3).
  exists ((s0 :: e) :: ls). split; [cbn; now rewrite E, A1|]. split; [exact A2|]. unfold render.
  assert (R : roomy [] 0) by (intros p L; cbn [fit_rest]; rewrite Nat.add_0_r; destruct (Nat.ltb_spec width p); [lia|reflexivity]).
  rewrite (best_soft d x S0 0 [] 0 0 R I). cbn [option_map]. change (packed_columns uwidth ([] ++ [[]])) with 0 in A3. rewrite A3. f_equal. unfold packed_text. cbn [map].
  rewrite (join_flat [c_nl]), (join_flat [c_sp]), !flat_map_map. cbn [app]. now rewrite <- !app_assoc.
Qed.
End Lay.
