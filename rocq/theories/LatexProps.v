(** Proofs of the LaTeX properties: escaping, well-formedness, numbering, width. *)
From Coq Require Import String.
From Verif Require Export LatexFacts.
Import ListNotations.
Open Scope list_scope.

(** ** The grammar *)
Lemma ltx_app b x y : ltx b x -> ltx b y -> ltx b (x ++ y).
Proof.
  intros H Y. induction H; cbn [app] in *; try (rewrite <- ?app_assoc).
  - exact Y.
  - apply ltx_char; auto.
  - apply ltx_amp; auto.
  - apply (ltx_symbol tab c); auto.
  - apply (ltx_command tab n c (s ++ y)); auto.
  - apply ltx_group; auto.
  - apply ltx_math; auto.
  - apply ltx_env; auto.
  - apply ltx_verbatim; auto.
Qed.
Lemma ltx_true b s : ltx b s -> ltx true s.
Proof. induction 1; try (constructor; assumption). Qed.
Lemma ltx_any b s : ltx false s -> ltx b s.
Proof. destruct b; [apply ltx_true|auto]. Qed.
Lemma ltx_plain b s : forallb (fun c => negb (tex_special c)) s = true -> ltx b s.
Proof.
  induction s as [|c s IH]; intro H; [constructor|]. cbn [forallb] in H. apply andb_prop in H as [A B].
  apply ltx_char; auto. now destruct (tex_special c).
Qed.

(** ** Escaping *)
Lemma tex_special_cases (P : char -> Prop) c :
  P 92%N -> P 123%N -> P 125%N -> P 36%N -> P 38%N -> P 37%N -> P 35%N -> P 94%N -> P 95%N -> P 126%N ->
  (tex_special c = false -> P c) -> P c.
Proof.
  intros. destruct (tex_special c) eqn:E; auto. unfold tex_special in E. cbn in E.
  repeat (apply orb_prop in E as [E|E]; [apply N.eqb_eq in E; subst; assumption|]). discriminate.
Qed.
Lemma escape_latex_plain c : tex_special c = false -> escape_latex_char c = [c].
Proof.
  intro H. unfold tex_special in H. cbn in H. unfold escape_latex_char.
  repeat (apply orb_false_elim in H as [? H]).
  repeat match goal with K : N.eqb c ?k = false |- _ => rewrite K; clear K end. reflexivity.
Qed.
Lemma ltx_escape_char b c : ltx b (escape_latex_char c).
Proof.
  apply (tex_special_cases (fun c => ltx b (escape_latex_char c))).
  2-7: apply ltx_symbol; [reflexivity|constructor].
  5: intro H; rewrite escape_latex_plain by exact H; apply ltx_char; [exact H|constructor].
  - apply (ltx_command b (lit "textbackslash") 123%N (lit "}")); try discriminate; try reflexivity; [split; [discriminate|reflexivity]|].
    apply (ltx_group b [] []); constructor.
  - apply (ltx_command b (lit "textasciicircum") 123%N (lit "}")); try discriminate; try reflexivity; [split; [discriminate|reflexivity]|].
    apply (ltx_group b [] []); constructor.
  - apply ltx_symbol; [reflexivity|constructor].
  - apply (ltx_command b (lit "textasciitilde") 123%N (lit "}")); try discriminate; try reflexivity; [split; [discriminate|reflexivity]|].
    apply (ltx_group b [] []); constructor.
Qed.
Lemma ltx_escape b s : ltx b (escape_latex s).
Proof. induction s as [|c s IH]; [constructor|]. apply ltx_app; [apply ltx_escape_char|exact IH]. Qed.

(** decoding: undo the first escape sequence *)
Definition unescapes : list (str * char) :=
  [(lit "\textbackslash{}", 92); (lit "\{", 123); (lit "\}", 125); (lit "\$", 36); (lit "\&", 38); (lit "\%", 37);
   (lit "\#", 35); (lit "\textasciicircum{}", 94); (lit "\_", 95); (lit "\textasciitilde{}", 126)]%N.
Fixpoint first_match (l : list (str * char)) (s : str) : option (char * str) :=
  match l with
  | [] => match s with [] => None | c :: s' => Some (c, s') end
  | (p, c) :: l' => match drop_prefix p s with Some s' => Some (c, s') | None => first_match l' s end
  end.
Lemma first_match_escape c s : first_match unescapes (escape_latex_char c ++ s) = Some (c, s).
Proof.
  apply (tex_special_cases (fun c => first_match unescapes (escape_latex_char c ++ s) = Some (c, s))); try reflexivity.
  intro H. rewrite escape_latex_plain by exact H.
  assert (E : N.eqb 92 c = false).
  { destruct (N.eqb_spec 92 c) as [<-|]; [discriminate H|reflexivity]. }
  assert (G : forall l, Forall (fun pc : str * char => exists r, fst pc = 92%N :: r) l -> first_match l ([c] ++ s) = Some (c, s)).
  { induction 1 as [|[p k] l [r Er] F IH]; [reflexivity|]. cbn [fst] in Er. subst p. cbn [app first_match drop_prefix].
    rewrite E. exact IH. }
  apply G. unfold unescapes. repeat (constructor; [eexists; reflexivity|]). constructor.
Qed.
Lemma escape_latex_inj : forall a b, escape_latex a = escape_latex b -> a = b.
Proof.
  induction a as [|c a IH]; intros [|d b] H; auto.
  - cbn in H. assert (L := first_match_escape d (escape_latex b)). unfold escape_latex in L. rewrite <- H in L. discriminate.
  - cbn in H. assert (L := first_match_escape c (escape_latex a)). unfold escape_latex in L. rewrite H in L. discriminate.
  - assert (L1 := first_match_escape c (escape_latex a)). assert (L2 := first_match_escape d (escape_latex b)).
    change (escape_latex_char c ++ escape_latex a) with (escape_latex (c :: a)) in L1.
    change (escape_latex_char d ++ escape_latex b) with (escape_latex (d :: b)) in L2.
    rewrite H, L2 in L1. injection L1 as -> E. f_equal. apply IH. now symmetry.
Qed.

(** ** Well-formed layouts *)
Definition wfl (b : bool) (t : list sch) : Prop := forall s, layout t s -> ltx b s.
Lemma wfl_app b x y : wfl b x -> wfl b y -> wfl b (x ++ y).
Proof. intros X Y s L. apply layout_app in L as (u & v & -> & A & B). apply ltx_app; auto. Qed.
Lemma wfl_chs b s : ltx b s -> wfl b (chs s).
Proof. intros H x L. apply layout_chs in L as ->. exact H. Qed.
Lemma wfl_nil b : wfl b [].
Proof. apply (wfl_chs b []). constructor. Qed.
Lemma wfl_any b t : wfl false t -> wfl b t.
Proof. intros H s L. apply ltx_any. auto. Qed.
Lemma wfl_cat {A} b (f : A -> list sch) l : Forall (fun x => wfl b (f x)) l -> wfl b (flat_map f l).
Proof. induction 1; cbn; [apply wfl_nil|apply wfl_app; auto]. Qed.
Lemma wfl_sep b sep l : wfl b sep -> Forall (wfl b) l -> wfl b (sep_by sep l).
Proof.
  intros S. induction 1 as [|x l H F IH]; [apply wfl_nil|]. cbn. destruct l; [exact H|].
  apply wfl_app; [exact H|]. apply wfl_app; auto.
Qed.
Lemma wfl_plain b s : forallb (fun c => negb (tex_special c)) s = true -> wfl b (chs s).
Proof. intro H. now apply wfl_chs, ltx_plain. Qed.
Lemma wfl_esc b s : wfl b (esc s).
Proof. apply wfl_chs, ltx_escape. Qed.
Lemma wfl_soft b : wfl b [Soft].
Proof. intros s L. inversion L; subst. inversion H3; subst. inversion H1; subst; apply ltx_char; try reflexivity; constructor. Qed.
Lemma wfl_nl b : wfl b nl.
Proof. apply (wfl_plain b [10%N]). reflexivity. Qed.
Lemma wfl_flow b s : wfl b (flow s).
Proof.
  rewrite (proj1 (flow'_eq s)). generalize false. induction s as [|c s IH]; intro p; cbn [flow']; [apply wfl_nil|].
  destruct (is_whitespace c); apply wfl_app; auto.
  - destruct p; [apply wfl_nil|apply wfl_soft].
  - apply wfl_chs, ltx_escape_char.
Qed.
Lemma braces_inv t s : layout (braces t) s -> exists x, s = lit "{" ++ x ++ lit "}" /\ layout t x.
Proof.
  intro L. apply layout_app in L as (a & r & -> & A & R). apply layout_app in R as (x & c & -> & X & C).
  apply layout_chs in A as ->. apply layout_chs in C as ->. eauto.
Qed.
Lemma wfl_braces b t : wfl false t -> wfl b (braces t).
Proof.
  intros H s L. apply braces_inv in L as (x & -> & X).
  replace (lit "{" ++ x ++ lit "}") with (lit "{" ++ x ++ lit "}" ++ []) by now rewrite app_nil_r.
  apply ltx_group; [auto|constructor].
Qed.
Definition cmd_name (n : string) : Prop := letters (lit n) /\ lit n <> lit "begin" /\ lit n <> lit "end".
Ltac cmdname := split; [split; [discriminate|reflexivity]|split; discriminate].
Lemma wfl_cmd b n t : cmd_name n -> wfl false t -> wfl b (cmd_ n t).
Proof.
  intros (N1 & N2 & N3) H s L. unfold cmd_ in L.
  apply layout_app in L as (a & r & -> & A & R). apply layout_app in R as (m & y & -> & M & Y).
  apply layout_chs in A as ->. apply layout_chs in M as ->.
  pose proof (wfl_braces b t H y Y) as Wy. apply braces_inv in Y as (x & -> & X).
  apply (ltx_command b (lit n) 123%N); auto.
Qed.
Lemma wfl_command b n c t : cmd_name n -> is_alpha c = false -> wfl b (chs [c] ++ t) -> wfl b (chs (lit "\" ++ lit n) ++ chs [c] ++ t).
Proof.
  intros (N1 & N2 & N3) C H s L. apply layout_app in L as (a & r & -> & A & R). apply layout_chs in A as ->.
  pose proof (H r R) as Wr. apply layout_app in R as (x & y & -> & X & Y). apply layout_chs in X as ->.
  rewrite <- app_assoc. apply (ltx_command b (lit n) c); auto.
Qed.
Definition env_name (n : string) : Prop := letters (lit n) /\ verbatim_env (lit n) = false.
Lemma env_inv n opt t s : layout (env_ n opt t) s ->
  exists o x, s = env_begin (lit n) ++ o ++ lit "
" ++ x ++ lit "
" ++ env_end (lit n) /\ layout opt o /\ layout t x.
Proof.
  unfold env_. intro L. apply layout_app in L as (a & r & -> & A & R). apply layout_app in R as (o & r' & -> & O & R).
  apply layout_app in R as (e & r'' & -> & E & R). apply layout_app in R as (x & r3 & -> & X & R).
  apply layout_app in R as (e' & z & -> & E' & Z).
  apply layout_chs in A as ->. apply layout_chs in Z as ->. apply (layout_chs [10%N]) in E as ->. apply (layout_chs [10%N]) in E' as ->.
  eauto 10.
Qed.
Lemma wfl_env b n opt t : env_name n -> wfl (table_env (lit n)) opt -> wfl (table_env (lit n)) t -> wfl b (env_ n opt t).
Proof.
  intros (N1 & N2) O T s L. apply env_inv in L as (o & x & -> & Lo & Lx).
  replace (env_begin (lit n) ++ o ++ lit "
" ++ x ++ lit "
" ++ env_end (lit n)) with (env_begin (lit n) ++ (o ++ lit "
" ++ x ++ lit "
") ++ env_end (lit n) ++ []) by (rewrite app_nil_r, <- !app_assoc; reflexivity).
  apply ltx_env; auto; [|constructor].
  apply ltx_app; [auto|]. apply ltx_app; [now apply ltx_plain|]. apply ltx_app; [auto|now apply ltx_plain].
Qed.
(** code: the body starts and ends with a line break *)
Lemma app_prefix_cases {A} (a b c d : list A) : a ++ b = c ++ d ->
  (exists e, a = c ++ e /\ d = e ++ b) \/ (exists e, c = a ++ e /\ b = e ++ d).
Proof.
  revert c. induction a as [|x a IH]; intros c H.
  - right. exists c. auto.
  - destruct c as [|y c]; [left; exists (x :: a); auto|]. injection H as -> H.
    destruct (IH c H) as [(e & -> & ->)|(e & -> & ->)]; [left|right]; exists e; auto.
Qed.
Lemma occurs_snoc p q s c : ~ In c (p ++ [q]) -> occurs (p ++ [q]) (s ++ [c]) -> occurs (p ++ [q]) s.
Proof.
  intros N (a & b & E). destruct b as [|y b _] using rev_ind.
  - rewrite app_nil_r, app_assoc in E. apply app_inj_tail in E as [_ ->]. exfalso. apply N. apply in_or_app. right. now left.
  - rewrite !app_assoc in E. apply app_inj_tail in E as [-> _]. exists a, b. now rewrite !app_assoc.
Qed.
Lemma end_no_nl n : letters n -> ~ In 10%N (env_end n).
Proof.
  intros [_ H] I. unfold env_end in I. apply in_app_or in I as [I|I].
  - cbn in I. repeat (destruct I as [I|I]; [discriminate I|]). exact I.
  - apply in_app_or in I as [I|I]; [|cbn in I; destruct I as [I|I]; [discriminate I|exact I]].
    rewrite forallb_forall in H. apply H in I. discriminate.
Qed.
Lemma verbatim_letters n : verbatim_env n = true -> letters n.
Proof.
  unfold verbatim_env. intro H. apply orb_prop in H as [H|H]; [apply orb_prop in H as [H|H]|]; apply str_eqb_eq in H; subst.
  all: split; [discriminate|reflexivity].
Qed.
Lemma occurs_body n s : verbatim_env n = true -> occurs (env_end n) (s ++ lit "
") -> occurs (env_end n) s.
Proof.
  intros V H. unfold env_end in *. rewrite app_assoc in *. change (lit "
") with [10%N] in H. change (lit "}") with [125%N] in *.
  eapply occurs_snoc; [|exact H]. rewrite <- app_assoc. apply end_no_nl. now apply verbatim_letters.
Qed.
Lemma wfl_verbatim b n opt code : verbatim_env (lit n) = true ->
  (opt = [] \/ exists o, forallb plain_char o = true /\ (opt = lit "[" ++ o ++ lit "]" \/ opt = lit "{" ++ o ++ lit "}")) ->
  ~ occurs (env_end (lit n)) code -> wfl b (env_ n (chs opt) (chs code)).
Proof.
  intros V O C s L. apply env_inv in L as (o & x & -> & Lo & Lx). apply layout_chs in Lo as ->. apply layout_chs in Lx as ->.
  replace (code ++ lit "
" ++ env_end (lit n)) with ((code ++ lit "
") ++ env_end (lit n) ++ []) by (rewrite app_nil_r, <- !app_assoc; reflexivity).
  apply ltx_verbatim; auto; [|constructor]. intro H. apply C. now apply occurs_body.
Qed.

Lemma digits_plain n : forallb (fun c => negb (tex_special c)) (dec n) = true.
Proof.
  unfold dec. assert (G : forall f n acc, forallb (fun c => negb (tex_special c)) acc = true ->
    forallb (fun c => negb (tex_special c)) (dec_digits f n acc) = true).
  { induction f as [|f IH]; intros m acc A; [exact A|]. cbn [dec_digits].
    assert (B : forallb (fun c => negb (tex_special c)) ((48 + N.modulo m 10)%N :: acc) = true).
    { cbn [forallb]. rewrite A, andb_true_r. apply negb_true_iff.
      assert (L : (m mod 10 < 10)%N) by now apply N.mod_lt. generalize dependent (m mod 10)%N. intros k L.
      apply (tex_special_cases (fun c => c = (48 + k)%N -> tex_special c = false)); try lia; auto. }
    destruct (m <? 10)%N; auto. }
  apply G. reflexivity.
Qed.
Lemma forallb_app_true {A} (p : A -> bool) a b : forallb p a = true -> forallb p b = true -> forallb p (a ++ b) = true.
Proof. intros H K. now rewrite forallb_app, H, K. Qed.

Section Wf.
Variable num : str -> option N.
Variable def : list inline -> option link_definition.
Variable cfg : latex_config.
Definition refs_ok (l : list inline) : Prop := forall x, In (IFootnoteReference x) (flat_map inline_preorder l) -> num x <> None.
Lemma wfl_num n b : wfl b (chs (lit "[" ++ dec n ++ lit "]")).
Proof. apply wfl_plain. repeat apply forallb_app_true; try reflexivity. apply digits_plain. Qed.

Lemma wfl_inline b : forall i, (forall x, In (IFootnoteReference x) (inline_preorder i) -> num x <> None) -> wfl b (tex_inline num def i).
Proof.
  intro i. revert b. induction i using inline_ind'; intros b R; cbn [tex_inline link_destination link_title link_children lr_label lr_text].
  all: try (assert (HC : wfl false (flat_map (tex_inline num def) c)) by
    (apply wfl_cat; apply Forall_forall; intros j J; rewrite Forall_forall in H; apply H; [exact J|];
     intros x X; apply R; cbn [inline_preorder link_children]; right; apply in_flat_map; eauto)).
  - destruct (forallb is_whitespace s) eqn:W; [|apply wfl_flow].
    apply wfl_plain. apply forallb_forall. intros c I. apply in_map_iff in I as (k & <- & I).
    rewrite forallb_forall in W. apply W in I. apply negb_true_iff.
    destruct (N.eqb_spec k 10); [reflexivity|]. revert I.
    apply (tex_special_cases (fun k => is_whitespace k = true -> tex_special k = false)); try discriminate; auto.
  - apply (wfl_app b (chs (lit "\\")) nl); [|apply wfl_nl]. apply wfl_chs. apply (ltx_symbol b 92%N []); [reflexivity|constructor].
  - apply wfl_cmd; [cmdname|apply wfl_esc].
  - apply wfl_esc.
  - apply wfl_app; [apply wfl_cmd; [cmdname|apply wfl_esc]|]. apply wfl_app; [now apply wfl_braces|].
    destruct t; [|apply wfl_nil]. apply wfl_cmd; [cmdname|apply wfl_esc].
  - assert (HL : wfl false (flat_map (tex_inline num def) l)).
    { apply wfl_cat; apply Forall_forall; intros j J; rewrite Forall_forall in H; apply H; [exact J|].
      intros x X; apply R; cbn [inline_preorder lr_label lr_text]; right; apply in_or_app; left; apply in_flat_map; eauto. }
    assert (HT : wfl false (flat_map (tex_inline num def) t)).
    { apply wfl_cat; apply Forall_forall; intros j J; rewrite Forall_forall in H0; apply H0; [exact J|].
      intros x X; apply R; cbn [inline_preorder lr_label lr_text]; right; apply in_or_app; right; apply in_flat_map; eauto. }
    destruct (def l).
    + apply wfl_app; [apply wfl_cmd; [cmdname|apply wfl_esc]|]. now apply wfl_braces.
    + apply wfl_any. apply wfl_app; [now apply wfl_plain|]. apply wfl_app; [exact HT|]. apply wfl_app; [now apply wfl_plain|].
      apply wfl_app; [exact HL|now apply wfl_plain].
  - apply wfl_app; [apply (wfl_cmd b "includegraphics" []); [cmdname|apply wfl_nil]|].
    apply wfl_app; [apply wfl_braces, wfl_esc|]. destruct (image_alt im); [apply wfl_nil|].
    apply wfl_cmd; [cmdname|apply wfl_esc].
  - apply wfl_cmd; [cmdname|exact HC].
  - apply wfl_cmd; [cmdname|exact HC].
  - apply wfl_cmd; [cmdname|exact HC].
  - apply wfl_cmd; [cmdname|apply wfl_esc].
  - destruct (num s) eqn:E.
    + apply wfl_cmd; [cmdname|apply wfl_num].
    + exfalso. apply (R s); [now left|exact E].
  - apply wfl_nil.
Qed.
Lemma wfl_inlines b l : refs_ok l -> wfl b (tex_inlines num def l).
Proof.
  intro R. apply wfl_cat. apply Forall_forall. intros i I. apply wfl_inline. intros x X. apply R.
  apply in_flat_map. eauto.
Qed.
Lemma wfl_row r : refs_ok (concat r) -> wfl true (tex_row num def r).
Proof.
  intro R. apply wfl_app.
  - apply wfl_sep.
    + apply (wfl_chs true (lit " & ")). apply (ltx_char true 32%N); [reflexivity|]. apply ltx_amp. now apply ltx_plain.
    + apply Forall_map. apply Forall_forall. intros c C. apply wfl_inlines. intros x X. apply R.
      apply in_flat_map in X as (i & I & X). apply in_flat_map. exists i. split; [|exact X]. apply in_concat. eauto.
  - apply wfl_chs. apply (ltx_char true 32%N); [reflexivity|]. apply (ltx_symbol true 92%N []); [reflexivity|constructor].
Qed.
Lemma wfl_rule b n : cmd_name n -> wfl b (chs (lit "\" ++ lit n) ++ nl).
Proof.
  intro N. pose proof (wfl_command b n 10%N [] N eq_refl) as H. rewrite app_nil_r in H. apply H. apply wfl_nl.
Qed.
Lemma columns_plain al : forallb (fun c => negb (tex_special c)) (columns al) = true.
Proof. induction al as [|[] al IH]; [reflexivity|..]; exact IH. Qed.
Lemma wfl_table b t : refs_ok (concat (concat (t_rows t))) -> wfl b (tex_table cfg num def t).
Proof.
  intro R. unfold tex_table. destruct t as [rows al]. cbn [t_rows t_alignments] in *.
  assert (RR : Forall (fun r => wfl true (tex_row num def r)) rows).
  { apply Forall_forall. intros r I. apply wfl_row. intros x X. apply R. apply in_flat_map in X as (i & Ii & X).
    apply in_flat_map. exists i. split; [|exact X]. apply in_concat in Ii as (c & C & Ii). apply in_concat. exists c. split; [|exact Ii].
    apply in_concat. eauto. }
  assert (G : forall rule tail, wfl true (cs rule ++ nl) -> wfl true tail -> wfl true match rows with
    | [] => [] | h :: rs => tex_row num def h ++ nl ++ cs rule ++ nl ++ flat_map (fun r => tex_row num def r ++ tail ++ nl) rs end).
  { intros rule tail Hr Ht. destruct RR as [|h rs Hh Hrs]; [apply wfl_nil|].
    apply wfl_app; [exact Hh|]. apply wfl_app; [apply wfl_nl|]. rewrite app_assoc. apply wfl_app; [exact Hr|].
    apply wfl_cat. eapply Forall_impl; [|exact Hrs]. intros r Hx. apply wfl_app; [exact Hx|]. apply wfl_app; [exact Ht|apply wfl_nl]. }
  assert (S : forall s, forallb (fun c => negb (tex_special c)) s = true -> wfl true (chs (lit "[" ++ s ++ lit "]"))).
  { intros s Hs. apply wfl_plain. repeat apply forallb_app_true; auto. }
  assert (ET : env_name "tabular") by (split; [split; [discriminate|reflexivity]|reflexivity]).
  assert (EL : env_name "longtabu") by (split; [split; [discriminate|reflexivity]|reflexivity]).
  destruct (lc_table_style cfg).
  - apply wfl_env; auto; [apply S, columns_plain|]. apply G; [apply (wfl_rule true "hline"); cmdname|apply wfl_nil].
  - apply wfl_env; auto.
    + change (lit "[X[l] to \textwidth {" ++ columns al ++ lit "}]") with
        (lit "[X[l] to " ++ (lit "\" ++ lit "textwidth" ++ 32%N :: (lit "{" ++ columns al ++ lit "}" ++ lit "]"))).
      apply wfl_chs. apply ltx_app; [now apply ltx_plain|].
      apply (ltx_command _ (lit "textwidth") 32%N); try discriminate; try reflexivity; [split; [discriminate|reflexivity]|].
      apply ltx_char; [reflexivity|]. apply ltx_group; [apply ltx_plain, columns_plain|now apply ltx_plain].
    + apply G.
      * change (cs "\\ \hline" ++ nl) with (chs (lit "\\") ++ chs [32%N] ++ (chs (lit "\" ++ lit "hline") ++ nl)).
        apply wfl_app; [apply wfl_chs, (ltx_symbol true 92%N []); [reflexivity|constructor]|].
        apply wfl_app; [now apply wfl_plain|apply (wfl_rule true "hline"); cmdname].
      * apply wfl_chs. apply (ltx_char true 32%N); [reflexivity|]. apply (ltx_symbol true 92%N []); [reflexivity|constructor].
  - (* "\bottomrule" is ended by the line break before "\end" *)
    apply wfl_any. intros s L.
    assert (L' : layout (chs (env_begin (lit "tabular")) ++ (chs (lit "[" ++ columns al ++ lit "]") ++ nl ++ (cs "\toprule" ++ nl) ++
       (match rows with
        | [] => [] | h :: rs => tex_row num def h ++ nl ++ cs "\midrule" ++ nl ++ flat_map (fun r => tex_row num def r ++ [] ++ nl) rs end)
        ++ (cs "\bottomrule" ++ nl)) ++ chs (env_end (lit "tabular"))) s).
    { unfold env_ in L. rewrite <- !app_assoc in L. rewrite <- !app_assoc. exact L. }
    clear L. apply layout_app in L' as (a & r & -> & A & L). apply layout_app in L as (x & e & -> & X & E).
    apply layout_chs in A as ->. apply layout_chs in E as ->. rewrite <- (app_nil_r (env_end _)).
    apply ltx_env; try apply ET; [|constructor]. revert X. change (table_env (lit "tabular")) with true. apply wfl_app; [apply S, columns_plain|].
    apply wfl_app; [apply wfl_nl|]. apply wfl_app; [apply (wfl_rule true "toprule"); cmdname|].
    apply wfl_app; [|apply (wfl_rule true "bottomrule"); cmdname].
    apply G; [apply (wfl_rule true "midrule"); cmdname|apply wfl_nil].
Qed.
Lemma plain_char_special s : forallb plain_char s = true -> forallb (fun c => negb (tex_special c)) s = true.
Proof.
  intro H. rewrite forallb_forall in *. intros c I. apply H in I. unfold plain_char in I.
  destruct (tex_special c); [discriminate I|reflexivity].
Qed.
Lemma wfl_code b c : block_clean cfg (BCodeBlock c) -> wfl b (tex_code cfg c).
Proof.
  destruct c as [k s]. unfold block_clean, code_env, tex_code. cbn [cb_kind cb_literal]. intros [C P].
  destruct (lc_code_block_style cfg).
  - apply (wfl_verbatim b "verbatim" []); auto.
  - assert (K : lc_code_block_style cfg = lc_code_block_style cfg) by reflexivity.
    destruct k as [|[l|]]; [apply (wfl_verbatim b "lstlisting" []); auto| |apply (wfl_verbatim b "lstlisting" []); auto].
    apply wfl_verbatim; auto. right. exists (lit "language=" ++ l). split; [apply forallb_app_true; auto|]. left. now rewrite <- app_assoc.
  - unfold braces, cs.
    destruct k as [|[l|]]; rewrite <- ?chs_app; apply wfl_verbatim; auto; right; eexists; (split; [|right; reflexivity]); auto.
Qed.
Lemma wfl_task b t : wfl b (match t with Some Complete => cs "$\boxtimes$ " | Some Incomplete => cs "$\square$ " | None => [] end).
Proof.
  destruct t as [[]|]; [| |apply wfl_nil]; apply wfl_chs.
  - apply (ltx_math b (lit "square") (lit " ")); [split; [discriminate|reflexivity]|now apply ltx_plain].
  - apply (ltx_math b (lit "boxtimes") (lit " ")); [split; [discriminate|reflexivity]|now apply ltx_plain].
Qed.
Lemma section_cmd k : cmd_name (section_ k).
Proof.
  unfold section_. destruct k as [n|[]]; try cmdname.
  destruct (N.eqb n 1), (N.eqb n 2), (N.eqb n 3), (N.eqb n 4); cmdname.
Qed.
Lemma wfl_block : forall b, Forall (block_clean cfg) (block_preorder b) ->
  Forall (fun x => refs_ok (block_inlines x)) (block_preorder b) -> wfl false (tex_block cfg num def b).
Proof.
  assert (J : wfl false (nl ++ nl)) by (apply wfl_app; apply wfl_nl).
  assert (K : forall bs, Forall (fun b => Forall (block_clean cfg) (block_preorder b) ->
      Forall (fun x => refs_ok (block_inlines x)) (block_preorder b) -> wfl false (tex_block cfg num def b)) bs ->
      Forall (block_clean cfg) (flat_map block_preorder bs) -> Forall (fun x => refs_ok (block_inlines x)) (flat_map block_preorder bs) ->
      wfl false (sep_by (nl ++ nl) (map (tex_block cfg num def) bs))).
  { intros bs H C R. apply wfl_sep; [exact J|]. apply Forall_map. rewrite Forall_forall in *.
    intros b I. apply H; auto; apply Forall_forall; intros x X; [apply C|apply R]; apply in_flat_map; eauto. }
  induction b using block_ind'; cbn [tex_block l_kind l_items fd_label fd_blocks ga_type ga_blocks]; intros C R.
  all: cbn [block_preorder l_items fd_blocks ga_blocks] in C, R; apply Forall_cons_iff in C as [C1 C2]; apply Forall_cons_iff in R as [R1 R2].
  - now apply wfl_inlines.
  - apply wfl_cmd; [apply section_cmd|now apply wfl_inlines].
  - apply wfl_cmd; [cmdname|apply wfl_nil].
  - apply wfl_env; [split; [split; [discriminate|reflexivity]|reflexivity]|apply wfl_nil|now apply K].
  - assert (G : wfl false (flat_map (fun it => cs "\item " ++ match li_task it with
             | Some Complete => cs "$\boxtimes$ " | Some Incomplete => cs "$\square$ " | None => [] end ++
           sep_by (nl ++ nl) (map (tex_block cfg num def) (li_blocks it)) ++ nl) items)).
    { apply wfl_cat. rewrite Forall_forall in *. intros it I.
      apply wfl_app; [|apply wfl_app; [apply wfl_task|apply wfl_app; [|apply wfl_nl]]].
      - apply (wfl_chs false (lit "\item ")). apply (ltx_command false (lit "item") 32%N []); try discriminate; try reflexivity;
          [split; [discriminate|reflexivity]|now apply ltx_plain].
      - apply K; [apply H; exact I| |]; apply Forall_forall; intros x X; [apply C2|apply R2]; apply in_flat_map; eauto. }
    apply wfl_env; try apply wfl_nil; [|destruct k; exact G].
    destruct k; split; try reflexivity; split; try discriminate; reflexivity.
  - now apply wfl_code.
  - apply wfl_esc.
  - apply wfl_nil.
  - now apply wfl_table.
  - destruct (num l); [|apply wfl_nil]. apply wfl_cmd; [cmdname|]. apply wfl_app; [|now apply K].
    apply wfl_plain. repeat apply forallb_app_true; try reflexivity. apply digits_plain.
  - apply wfl_cmd; [cmdname|]. apply wfl_app; [|apply wfl_app; [now apply wfl_plain|now apply K]].
    destruct t; try now apply wfl_plain. apply wfl_plain. now apply plain_char_special.
  - apply wfl_nil.
Qed.
End Wf.

(** ** Numbers *)
Lemma last_position_spec x l n : last_position x l = Some n <->
  exists pre post, l = pre ++ x :: post /\ ~ In x post /\ n = (N.of_nat (length pre) + 1)%N.
Proof.
  revert n. induction l as [|y l IH]; intro n; cbn [last_position].
  - split; [discriminate|]. intros (pre & post & E & _). destruct pre; discriminate.
  - destruct (last_position x l) as [m|] eqn:E.
    + split.
      * intros [= <-]. destruct (proj1 (IH m) eq_refl) as (pre & post & -> & N & ->). exists (y :: pre), post.
        split; [reflexivity|]. split; [exact N|]. cbn [length]. lia.
      * intros (pre & post & Eq & N & ->). f_equal. destruct pre as [|z pre].
        -- injection Eq as -> ->. destruct (proj1 (IH m) eq_refl) as (pre & post' & -> & _). exfalso. apply N. apply in_or_app. right. now left.
        -- injection Eq as -> ->. assert (X : Some m = Some (N.of_nat (length pre) + 1)%N) by (apply IH; eauto).
           injection X as ->. cbn [length]. lia.
    + destruct (str_eqb x y) eqn:X.
      * apply str_eqb_eq in X as <-. split.
        -- intros [= <-]. exists [], l. split; [reflexivity|]. split; [|reflexivity]. intro I.
           apply in_split in I as (a & b & ->).
           assert (Y : exists pre post, a ++ x :: b = pre ++ x :: post /\ ~ In x post).
           { clear. induction b as [|z b IH] using rev_ind; [exists a, []; auto|]. destruct IH as (p & q & Eq & N).
             destruct (str_eqb x z) eqn:Z.
             - apply str_eqb_eq in Z as <-. exists (a ++ x :: b), []. split; [now rewrite <- app_assoc|auto].
             - exists p, (q ++ [z]). split.
               + change (x :: b ++ [z]) with ((x :: b) ++ [z]). rewrite app_assoc, Eq, <- app_assoc. reflexivity.
               + intro I. apply in_app_or in I as [I|[I|[]]]; [auto|]. subst. now rewrite str_eqb_refl in Z. }
           destruct Y as (p & q & Eq & N). specialize (IH (N.of_nat (length p) + 1)%N). rewrite Eq in IH.
           assert (F : None = Some (N.of_nat (length p) + 1)%N) by (apply IH; exists p, q; auto). discriminate F.
        -- intros (pre & post & Eq & N & ->). destruct pre as [|z pre]; [reflexivity|].
           injection Eq as <- ->. exfalso. assert (F : None = Some (N.of_nat (length pre) + 1)%N) by (apply IH; exists pre, post; auto). discriminate F.
      * split; [discriminate|]. intros (pre & post & Eq & N & ->). exfalso. destruct pre as [|z pre].
        -- injection Eq as -> ->. now rewrite str_eqb_refl in X.
        -- injection Eq as -> ->. assert (F : None = Some (N.of_nat (length pre) + 1)%N) by (apply IH; exists pre, post; auto). discriminate F.
Qed.
Lemma last_position_in x l : In x l <-> last_position x l <> None.
Proof.
  induction l as [|y l IH]; cbn [last_position].
  - split; [intros []|congruence].
  - destruct (last_position x l).
    + split; [discriminate|]. intros _. right. apply IH. discriminate.
    + destruct (str_eqb x y) eqn:E.
      * apply str_eqb_eq in E as <-. split; [discriminate|]. intros _. now left.
      * split; [|congruence]. intros [->|I]; [now rewrite str_eqb_refl in E|]. apply IH in I. congruence.
Qed.

Lemma render_latex_wf uw d cfg : Forall (block_clean cfg) (doc_blocks d) -> refs_defined d ->
  exists out, render_latex uw d cfg = Some out /\ ltx false out.
Proof.
  intros C R. destruct (render_latex_view uw d cfg) as (out & E & L). exists out. split; [exact E|].
  revert out E L. assert (W : wfl false (tex_view cfg d)); [|intros out _ L; now apply W].
  apply wfl_sep; [apply wfl_app; apply wfl_nl|]. apply Forall_map. apply Forall_forall. intros b B.
  apply wfl_block.
  - rewrite Forall_forall in *. intros x X. apply C. apply in_flat_map. eauto.
  - apply Forall_forall. intros x X y Y. apply last_position_in. apply R. apply in_flat_map. exists x. split; [|exact Y].
    apply in_flat_map. eauto.
Qed.

(** ** Widths *)
Lemma layout_two t a b : layout t a -> layout t b ->
  Forall2 (fun x y => x = y \/ (x = 32%N /\ y = 10%N) \/ (x = 10%N /\ y = 32%N)) a b.
Proof.
  intro A. revert b. induction A as [|u x t a H A IH]; intros b B; inversion B; subst; constructor; auto.
  inversion H; subst; inversion H2; subst; auto.
Qed.
Lemma tex_table_config n d c1 c2 t : lc_table_style c1 = lc_table_style c2 -> tex_table c1 n d t = tex_table c2 n d t.
Proof. intro H. unfold tex_table. now rewrite H. Qed.
Lemma tex_code_config c1 c2 c : lc_code_block_style c1 = lc_code_block_style c2 -> tex_code c1 c = tex_code c2 c.
Proof. intro H. unfold tex_code. now rewrite H. Qed.
Lemma tex_block_config n d c1 c2 : lc_table_style c1 = lc_table_style c2 -> lc_code_block_style c1 = lc_code_block_style c2 ->
  forall b, tex_block c1 n d b = tex_block c2 n d b.
Proof.
  intros T C. induction b using block_ind'; cbn [tex_block l_kind l_items fd_label fd_blocks ga_type ga_blocks]; try reflexivity.
  - now rewrite (map_ext_F _ _ _ H).
  - f_equal. apply flat_map_ext_F. eapply Forall_impl; [|exact H]. intros it Hi. cbn beta. now rewrite (map_ext_F _ _ _ Hi).
  - now apply tex_code_config.
  - now apply tex_table_config.
  - now rewrite (map_ext_F _ _ _ H).
  - now rewrite (map_ext_F _ _ _ H).
Qed.
Lemma tex_view_config c1 c2 d : lc_table_style c1 = lc_table_style c2 -> lc_code_block_style c1 = lc_code_block_style c2 ->
  tex_view c1 d = tex_view c2 d.
Proof. intros T C. unfold tex_view. f_equal. apply map_ext. intro b. now apply tex_block_config. Qed.
Lemma width_only_whitespace uw1 uw2 d c1 c2 :
  lc_table_style c1 = lc_table_style c2 -> lc_code_block_style c1 = lc_code_block_style c2 ->
  exists o1 o2, render_latex uw1 d c1 = Some o1 /\ render_latex uw2 d c2 = Some o2 /\
    Forall2 (fun x y => x = y \/ (x = 32%N /\ y = 10%N) \/ (x = 10%N /\ y = 32%N)) o1 o2 /\
    filter (fun c => negb (N.eqb c 32 || N.eqb c 10)) o1 = filter (fun c => negb (N.eqb c 32 || N.eqb c 10)) o2.
Proof.
  intros T C. destruct (render_latex_view uw1 d c1) as (o1 & E1 & L1). destruct (render_latex_view uw2 d c2) as (o2 & E2 & L2).
  rewrite (tex_view_config c1 c2 d T C) in L1. pose proof (layout_two _ _ _ L1 L2) as F.
  exists o1, o2. repeat (split; [assumption|]). clear -F.
  induction F as [|x y a b H F IH]; [reflexivity|]. cbn [filter].
  destruct H as [->|[[-> ->]|[-> ->]]]; cbn [negb]; rewrite IH; reflexivity.
Qed.
