(** A sound check for membership in the fragment of SpecRound.v; it is used for
    examples only and is not part of any statement. *)
From Coq Require Import String Lia.
From Verif Require Import HtmlProps.
From Verif Require Import RoundMain.
Import ListNotations.
Open Scope list_scope.

Local Ltac ands H := repeat match type of H with andb _ _ = true => apply andb_prop in H as [H ?] end.
Definition mem (c : char) (s : str) : bool := existsb (N.eqb c) s.
Lemma mem_in : forall c s, mem c s = true <-> In c s.
Proof. intros c s. unfold mem. rewrite existsb_exists. split; [intros (x & I & E); apply N.eqb_eq in E; now subst|intros I; exists c; split; [exact I|apply N.eqb_refl]]. Qed.
Lemma mem_not : forall c s, mem c s = false <-> ~ In c s.
Proof. intros c s. rewrite <- mem_in. destruct (mem c s); split; congruence. Qed.
Definition head_is (p : char -> bool) (s : str) : bool := match s with c :: _ => p c | [] => false end.
Lemma head_is_not : forall p s, head_is p s = false -> forall c, begins_with c s -> p c = false.
Proof. intros p s H c (t & ->). exact H. Qed.
Lemma head_eq_not : forall x s, head_is (N.eqb x) s = false -> ~ begins_with x s.
Proof. intros x s H (t & ->). cbn in H. rewrite N.eqb_refl in H. discriminate. Qed.
Lemma last_rev : forall c s, last_is c s <-> begins_with c (rev s).
Proof.
  intros c s. split.
  - intros (t & ->). rewrite rev_app_distr. now eexists.
  - intros (t & E). exists (rev t). rewrite <- (rev_involutive s), E. reflexivity.
Qed.

(** texts *)
Fixpoint spaced_b (t : str) : bool :=
  match t with
  | x :: u => match u with y :: _ => negb (is_whitespace x) || negb (is_whitespace y) | [] => true end && spaced_b u
  | [] => true
  end.
Definition words_b (t : str) : bool :=
  match t with [] => false | _ => true end && forallb (fun c => negb (mem c special_chars)) t &&
  forallb (fun c => negb (is_whitespace c) || N.eqb c c_sp || N.eqb c c_nl) t && spaced_b t.
Lemma words_ok : forall t, words_b t = true -> plain_words t.
Proof.
  intros t H. unfold words_b in H. ands H. split; [destruct t; [discriminate|congruence]|]. split; [|split].
  - apply Forall_forall. intros c I. rewrite forallb_forall in *. match goal with X : forall x, In x t -> negb (mem x _) = true |- _ => specialize (X c I) end.
    unfold plain_char. apply mem_not. now apply Bool.negb_true_iff.
  - intros c I W. match goal with X : forallb (fun c => _ || _ || _) t = true |- _ => rewrite forallb_forall in X; specialize (X c I) end. rewrite W in *. cbn in *.
    match goal with X : _ || _ = true |- _ => apply Bool.orb_prop in X as [X|X]; apply N.eqb_eq in X; auto end.
  - match goal with X : spaced_b t = true |- _ => revert X end. clear. intros H a b x y -> W. induction a as [|z a IH].
    + cbn [app spaced_b] in H. rewrite W in H. cbn in H. apply andb_prop in H as [H _]. now apply Bool.negb_true_iff.
    + apply IH. cbn [app] in H. cbn [spaced_b] in H. now apply andb_prop in H as [_ H].
Qed.
Fixpoint digits_end (w : str) : bool := match w with [] => false | [c] => mem c (lit ".)") | c :: u => is_digit c && digits_end u end.
Definition opens_b (w : str) : bool :=
  negb (head_is (fun c => mem c (lit ">|")) w) && forallb (fun c => negb (forallb (N.eqb c) w)) (lit "#=-") && negb (str_eqb w (lit "+")) &&
  negb (head_is is_digit w && digits_end w).
Lemma opens_ok : forall w, opens_b w = true -> opens_line w.
Proof.
  intros w H. unfold opens_b in H. ands H. repeat match goal with X : negb _ = true |- _ => apply Bool.negb_true_iff in X end. split; [|split; [|split]].
  - intros c t I ->. cbn [head_is] in H. apply mem_in in I. congruence.
  - intros c n I ->. match goal with X : forallb _ (lit "#=-") = true |- _ => rewrite forallb_forall in X; specialize (X c I) end.
    match goal with X : negb _ = true |- _ => apply Bool.negb_true_iff in X; assert (Y : forallb (N.eqb c) (repeat c n) = true) by (apply forallb_forall; intros x J; apply repeat_spec in J; subst; apply N.eqb_refl); congruence end.
  - intros ->. discriminate.
  - intros ds c N F I ->. match goal with X : _ && _ = false |- _ => rename X into D end. destruct ds as [|d ds]; [congruence|]. cbn [app head_is] in D. inversion F as [|? ? F1 F2]; subst. rewrite F1 in D. cbn [andb] in D.
    clear -D F1 F2 I. revert d F1 D. induction ds as [|e ds IH]; intros d F1 D.
    + cbn [app digits_end] in D. rewrite F1 in D. cbn [andb] in D. apply mem_in in I. congruence.
    + cbn [app] in D. change (digits_end (d :: e :: ds ++ [c])) with (is_digit d && digits_end (e :: ds ++ [c])) in D. rewrite F1 in D. cbn [andb] in D. inversion F2; subst. now apply (IH H2 e).
Qed.
Section Check.
Variable udigit : char -> bool.
Fixpoint safe_b (l : list (option str)) : bool :=
  match l with
  | x :: u => match x, u with None, Some w :: _ => opens_b w || unsafe udigit w | _, _ => true end && safe_b u
  | [] => true
  end.
Lemma tokens_words : forall t w, In (Some w) (tokens t) -> w <> [] /\ Forall (fun c => is_whitespace c = false) w.
Proof.
  induction t as [|c t IH]; intros w I; [destruct I|]. rewrite token_cons in I. unfold token_char in I. destruct (is_whitespace c) eqn:W.
  - apply IH. destruct (tokens t) as [|[x|] l]; try exact I; destruct I as [I|I]; try discriminate; exact I.
  - assert (X : forall x, w = c :: x -> Forall (fun c => is_whitespace c = false) x -> w <> [] /\ Forall (fun c => is_whitespace c = false) w).
    { intros x -> F. split; [discriminate|now constructor]. }
    destruct (tokens t) as [|[x|] l]; (destruct I as [I|I]; [injection I as <-; eapply X; [reflexivity|]|]); try (now constructor); try contradiction; try (apply IH; first [now left|now right]); now apply IH.
Qed.
Lemma safe_ok : forall t, safe_b (tokens t) = true -> wraps_safely udigit t.
Proof.
  intros t H a w b E. destruct (tokens_words t w) as [N F]; [rewrite E; apply in_or_app; right; right; now left|].
  assert (X : opens_b w || unsafe udigit w = true).
  { rewrite E in H. clear E. induction a as [|x a IH].
    - cbn [app safe_b] in H. now apply andb_prop in H as [H _].
    - apply IH. cbn [app] in H. cbn [safe_b] in H. now apply andb_prop in H as [_ H]. }
  apply Bool.orb_prop in X as [X|X]; [left; now apply opens_ok|right; now apply unsafe_iff].
Qed.
Definition tight_b (s : str) : bool := head_is (fun c => negb (is_whitespace c)) s && head_is (fun c => negb (is_whitespace c)) (rev s).
Lemma tight_ok : forall s, tight_b s = true -> tight s.
Proof.
  intros s H. apply andb_prop in H as [H1 H2]. split.
  - destruct s as [|c t]; [discriminate|]. exists c, t. split; [reflexivity|]. now apply Bool.negb_true_iff.
  - destruct (rev s) as [|c t] eqn:E; [discriminate|]. exists (rev t), c. split; [|now apply Bool.negb_true_iff]. rewrite <- (rev_involutive s), E. reflexivity.
Qed.
Definition one_liner_b (s : str) : bool := negb (mem c_nl s) && negb (mem c_cr s).
Lemma one_liner_ok : forall s, one_liner_b s = true -> one_liner s.
Proof. intros s H. apply andb_prop in H as [H1 H2]. split; apply mem_not; now apply Bool.negb_true_iff. Qed.
Definition brackets_b (s : str) : bool := tight_b s && negb (mem (ch "]") s) && negb (mem (ch "\") s) && (List.length s <? 1000).
Lemma brackets_ok : forall s, brackets_b s = true -> in_brackets s.
Proof.
  intros s H. unfold brackets_b in H. ands H. split; [now apply tight_ok|]. split; [now apply mem_not, Bool.negb_true_iff|]. split; [now apply mem_not, Bool.negb_true_iff|now apply Nat.ltb_lt].
Qed.
Definition target_b (d : str) (t : option str) : bool :=
  match d with [] => false | _ => true end && forallb bare_char d && one_liner_b d &&
  match t with Some t => one_liner_b t && negb (mem 34%N t) && negb (mem (ch "\") t) | None => true end.
Lemma target_ok : forall d t, target_b d t = true -> plain_target d t.
Proof.
  intros d t H. unfold target_b in H. ands H. split; [destruct d; [discriminate|congruence]|]. split; [|split].
  - match goal with X : forallb bare_char d = true |- _ => revert X end. clear. induction d as [|c d IH]; intros H; [constructor|]. cbn in H. apply andb_prop in H as [H1 H2]. constructor; auto.
  - now apply one_liner_ok.
  - destruct t as [t|]; [|exact I]. match goal with X : _ && _ && _ = true |- _ => ands X; split; [now apply one_liner_ok|split; apply mem_not; now apply Bool.negb_true_iff] end.
Qed.
Definition code_b (s : str) : bool :=
  match s with [] => false | _ => true end && one_liner_b s && negb (mem (ch "`") s) && negb (head_is (N.eqb c_sp) s).
Lemma code_ok : forall s, code_b s = true -> plain_code s.
Proof.
  intros s H. unfold code_b in H. ands H. split; [destruct s; [discriminate|congruence]|]. split; [now apply one_liner_ok|]. split; [now apply mem_not, Bool.negb_true_iff|].
  intros (u & -> & _). discriminate.
Qed.
Definition task_b (s : str) : bool := match s with a :: x :: b :: c :: _ => N.eqb a (ch "[") && N.eqb b (ch "]") && is_whitespace c | _ => false end.
Lemma task_ok : forall s, task_b s = false -> ~ task_like s.
Proof. intros s H (x & b & t & -> & W). cbn in H. congruence. Qed.
Definition close_b (s : str) : bool := match s with [] => true | c :: _ => is_whitespace c || is_ascii_punct c end.
Lemma close_ok : forall s, close_b s = true -> run_may_close s.
Proof. intros s H c (t & ->). now apply Bool.orb_prop. Qed.
Fixpoint sub2 (c : char) (s : str) : bool := match s with a :: u => match u with b :: _ => N.eqb a c && N.eqb b c | [] => false end || sub2 c u | [] => false end.
Lemma sub2_ok : forall c s, sub2 c s = false -> forall a b, s <> a ++ [c; c] ++ b.
Proof.
  intros c s H a b ->. induction a as [|x a IH].
  - cbn in H. rewrite N.eqb_refl in H. discriminate.
  - cbn [app sub2] in H. apply Bool.orb_false_elim in H as [_ H]. exact (IH H).
Qed.
Definition allb (f : char -> bool) (s : str) : bool := forallb f s.
Lemma all_ok : forall f s, allb f s = true -> all f s.
Proof. intros f s H. unfold all. apply Forall_forall. unfold allb in H. rewrite forallb_forall in H. exact H. Qed.
Fixpoint cut (c : char) (s : str) : option (str * str) :=
  match s with [] => None | x :: u => if N.eqb x c then Some ([], u) else match cut c u with Some (a, b) => Some (x :: a, b) | None => None end end.
Lemma cut_ok : forall c s a b, cut c s = Some (a, b) -> s = a ++ c :: b.
Proof.
  intros c s. induction s as [|x u IH]; intros a b H; [discriminate|]. cbn in H. destruct (N.eqb_spec x c) as [->|]; [injection H as <- <-; reflexivity|].
  destruct (cut c u) as [[a' b']|]; [|discriminate]. injection H as <- <-. cbn. f_equal. now apply IH.
Qed.
Definition link_b (u : str) : bool :=
  match cut (ch ":") u with Some (x :: (_ :: _) as a, b) => is_alpha x && allb scheme_char a && allb uri_char b | _ => false end ||
  match cut (ch "@") u with Some ((_ :: _) as a, (_ :: _) as b) => allb user_char a && allb host_char b | _ => false end.
Lemma link_ok : forall u, link_b u = true -> uri u \/ email u.
Proof.
  intros u H. unfold link_b in H. apply Bool.orb_prop in H as [H|H]; [left|right].
  - destruct (cut (ch ":") u) as [[[|x [|y a]] b]|] eqn:E; try discriminate. apply cut_ok in E. cbn [tl] in H. ands H. exists x, (y :: a), b. split; [exact E|].
    split; [exact H|]. split; [discriminate|]. split; now apply all_ok.
  - destruct (cut (ch "@") u) as [[[|x a] [|y b]]|] eqn:E; try discriminate. apply cut_ok in E. apply andb_prop in H as [H1 H2]. exists (x :: a), (y :: b). split; [exact E|]. split; [discriminate|]. split; [discriminate|]. split; now apply all_ok.
Qed.
Definition para_b (l : list inline) : bool :=
  match l with
  | [] => false
  | IText t :: _ => match tokens t with Some w :: _ => opens_b w | _ => false end
  | ILineBreak :: _ => false
  | _ => true
  end.
Lemma para_ok : forall l, para_b l = true -> opens_paragraph l.
Proof. intros [|[t| | | | | | | | | | | |] l0] H; try discriminate; try exact I. cbn in *. destruct (tokens t) as [|[w|] b]; try discriminate. exists w, b. split; [reflexivity|now apply opens_ok]. Qed.
Definition rich_item (ok : list inline -> bool) (i : inline) (l : list inline) : bool :=
  match i with
  | IText t => words_b t && match l with IText _ :: _ => false | _ => true end && negb (head_is (N.eqb (ch "!")) (rev t) && head_is (N.eqb (ch "[")) (source l)) &&
      negb (head_is is_whitespace (rev t) && match l with ILineBreak :: _ => true | _ => false end)
  | ILineBreak => para_b l
  | ICode s => code_b s && negb (head_is (N.eqb (ch "`")) (source l))
  | IEmphasis c => ok c && tight_b (source c) && negb (mem (ch "*") (source c)) && negb (task_b (source c)) && close_b (source l)
  | IStrong [IEmphasis c] => ok c && tight_b (source c) && negb (mem (ch "*") (source c)) && close_b (source l)
  | IStrong c => ok c && tight_b (source c) && negb (sub2 (ch "*") (lit "*" ++ source c ++ lit "*")) && close_b (source l)
  | IStrikethrough c => ok c && tight_b (source c) && negb (mem (ch "~") (source c)) && negb (head_is (N.eqb (ch "~")) (source l))
  | ILink (Link d t c) => ok c && brackets_b (source c) && target_b d t
  | IImage (Image d t a) => one_liner_b a && negb (mem (ch "]") a) && target_b d t
  | IAutolink u => link_b u
  | IFootnoteReference n => match n with [] => false | _ => true end && allb is_alnum n && negb (head_is (fun c => mem c (lit "(:")) (source l))
  | ILinkReference (LinkReference n c) =>
      if list_eqb inline_eqb n c then ok c && brackets_b (source c) && negb (head_is (N.eqb (ch "^")) (source c)) && negb (head_is (fun c => mem c (lit "([:")) (source l))
      else ok n && brackets_b (source n) && ok c && brackets_b (source c) && negb (head_is (N.eqb (ch "^")) (source c)) && negb (list_eqb inline_eqb (unwrap_inlines n) (unwrap_inlines c))
  | IHtml _ | IEmpty => false
  end.
(** [n]: nesting depth *)
Fixpoint rich_b (n : nat) (l : list inline) : bool :=
  match n with
  | 0 => false
  | S n => (fix go l := match l with [] => true | i :: l' => rich_item (rich_b n) i l' && go l' end) l
  end.
Lemma rich_ok : forall n l, rich_b n l = true -> rich l.
Proof.
  induction n as [|n IHn]; intros l H; [discriminate|]. cbn [rich_b] in H. induction l as [|i l IH]; [constructor|]. apply andb_prop in H as [Hi H]. specialize (IH H). clear H.
  destruct i as [t| |s|s|[d t c]|[m c]|[d t a]|c|c|c|u|m|]; cbn [rich_item] in Hi; try discriminate; rename Hi into H.
  - ands H. repeat match goal with X : negb _ = true |- _ => apply Bool.negb_true_iff in X end. constructor.
    + now apply words_ok.
    + exact IH.
    + intros t' l' ->. discriminate.
    + intros L B. apply last_rev in L as (x & L). destruct B as (y & B). rewrite L, B in *. discriminate.
    + intros c L W l' ->. apply last_rev in L as (x & L). rewrite L in *. cbn [head_is] in *. rewrite W in *. discriminate.
  - constructor; [exact IH|now apply para_ok].
  - apply andb_prop in H as [H1 H2]. constructor; [now apply code_ok|exact IH|]. now apply head_eq_not, Bool.negb_true_iff.
  - ands H. constructor; auto using brackets_ok, target_ok.
  - destruct (list_eqb inline_eqb m c) eqn:E.
    + apply label_eqb_eq in E. subst m. ands H. repeat match goal with X : negb _ = true |- _ => apply Bool.negb_true_iff in X end.
      constructor; auto using brackets_ok, head_eq_not. intros x I B. apply mem_in in I. apply (head_is_not _ _) with (c := x) in H0; [|exact B]. congruence.
    + ands H. repeat match goal with X : negb _ = true |- _ => apply Bool.negb_true_iff in X end.
      constructor; auto using brackets_ok, head_eq_not. intro X. apply label_eqb_eq in X. congruence.
  - ands H. constructor; auto using one_liner_ok, target_ok. now apply mem_not, Bool.negb_true_iff.
  - ands H. repeat match goal with X : negb _ = true |- _ => apply Bool.negb_true_iff in X end. constructor; auto using tight_ok, task_ok, close_ok. now apply mem_not.
  - assert (D : (exists c', c = [IEmphasis c'] /\ rich_b n c' && tight_b (source c') && negb (mem (ch "*") (source c')) && close_b (source l) = true) \/
      rich_b n c && tight_b (source c) && negb (sub2 (ch "*") (lit "*" ++ source c ++ lit "*")) && close_b (source l) = true).
    { destruct c as [|[] [|]]; try (right; exact H). left. now eexists. }
    destruct D as [(c' & -> & D)|D]; clear H; rename D into H; ands H; repeat match goal with X : negb _ = true |- _ => apply Bool.negb_true_iff in X end.
    + apply rich_both; auto using tight_ok, close_ok. now apply mem_not.
    + apply rich_strong; auto using tight_ok, close_ok. now apply (sub2_ok (ch "*")).
  - ands H. repeat match goal with X : negb _ = true |- _ => apply Bool.negb_true_iff in X end. constructor; auto using tight_ok, head_eq_not. now apply mem_not.
  - constructor; [now apply link_ok|exact IH].
  - ands H. repeat match goal with X : negb _ = true |- _ => apply Bool.negb_true_iff in X end. constructor; auto using all_ok; [destruct m; [discriminate|congruence]|].
    intros x I B. apply mem_in in I. eapply head_is_not in B; [|eassumption]. cbv beta in B. congruence.
Qed.
Definition wrap_b (l : list inline) : bool := forallb (fun i => match i with IText t => safe_b (tokens t) | _ => true end) (flat_map inline_preorder l).
Definition quote_place (p : place) : bool := match p with Quote => true | _ => false end.
Definition item_place_b (p : place) : bool := match p with Item _ => true | _ => false end.
Definition break_free (l : list inline) : bool := forallb (fun i => match i with ILineBreak => false | _ => true end) (flat_map inline_preorder l).
Lemma break_free_ok : forall l, break_free l = true -> ~ In ILineBreak (flat_map inline_preorder l).
Proof. intros l H I. unfold break_free in H. rewrite forallb_forall in H. now specialize (H _ I). Qed.
Definition paragraph_b (p : place) (l : list inline) : bool :=
  rich_b 10 l && wrap_b l && para_b l && tight_b (source l) && negb (quote_place p && match source l with a :: b :: _ => N.eqb a (ch "[") && N.eqb b (ch "!") | _ => false end) &&
  (negb (item_place_b p) || break_free l).
Lemma paragraph_ok : forall p l, paragraph_b p l = true -> rich_paragraph udigit p l.
Proof.
  intros p l H. unfold paragraph_b in H. ands H. split; [now apply (rich_ok 10)|]. split; [|split; [now apply para_ok|split; [now apply tight_ok|split]]].
  - intros t I. match goal with X : wrap_b l = true |- _ => unfold wrap_b in X; rewrite forallb_forall in X; specialize (X _ I) end. now apply safe_ok.
  - intros -> t E. rewrite E in *. discriminate.
  - intros (n & ->). now apply break_free_ok.
Qed.
(** blocks *)
Variable config : md_config.
Definition list_b (b : block) : bool := match b with BList _ => true | _ => false end.
Definition indented_b (b : block) : bool := match b with BCodeBlock (CodeBlock Indented _) => true | _ => false end.
Fixpoint orderly_b (p : place) (bs : list block) : bool :=
  match bs with
  | b :: u => match u with c :: _ => negb (list_b b) || (between_blocks p <=? margin p + list_indent config b) && negb (indented_b c) | [] => true end && orderly_b p u
  | [] => true
  end.
Lemma orderly_ok : forall p bs, orderly_b p bs = true -> orderly config p bs.
Proof.
  intros p bs H a b c d -> L. induction a as [|x a IH].
  - cbn [app orderly_b] in H. apply andb_prop in H as [H _]. destruct b; try destruct L. cbn [list_b negb orb] in H. apply andb_prop in H as [H1 H2]. split; [now apply Nat.leb_le|].
    intros X. destruct c as [| | | | |[[] ?]| | | | | |]; try destruct X. discriminate.
  - apply IH. cbn [app] in H. cbn [orderly_b] in H. now apply andb_prop in H as [_ H].
Qed.
Definition task_start_b (s : str) : bool := match s with a :: _ :: b :: t => N.eqb a (ch "[") && N.eqb b (ch "]") && match t with c :: _ => is_whitespace c | [] => true end | _ => false end.
Lemma task_start_ok : forall s, task_start_b s = false -> ~ task_start s.
Proof. intros s H (x & t & -> & W). cbn in H. destruct t as [|c u]; [discriminate|]. rewrite (W c u eq_refl) in H. discriminate. Qed.
Definition begins_b (b : block) : bool :=
  match b with
  | BParagraph c | BHeading (Heading (Setext _) c) => negb (task_start_b (source c))
  | BList _ => md_spaces_before_list_item config =? 0
  | _ => true
  end.
Definition first_b (task : option task_state) (bs : list block) : bool := match task, bs with None, b :: _ => begins_b b | _, _ => true end.
Lemma first_ok : forall task bs, first_b task bs = true -> first_block config task bs.
Proof.
  intros [t|] [|b bs] H; try exact I. cbn [first_b first_block] in *. destruct b as [c|[[n|l] c]| | |l| | | | | | |]; try exact I; cbn [begins_b begins_item] in *; try (apply task_start_ok; now apply Bool.negb_true_iff). now apply Nat.eqb_eq.
Qed.
Definition even_b (kind : list_kind) (count : nat) : bool := forallb (fun i => List.length (marker kind i) =? List.length (marker kind (count - 1))) (seq 0 count).
Lemma even_ok : forall kind count, even_b kind count = true -> even_markers kind count.
Proof. intros kind count H i Hi. unfold even_b in H. rewrite forallb_forall in H. apply Nat.eqb_eq, H, in_seq. lia. Qed.
Definition fit_b (kind : list_kind) (count : nat) : bool := match kind with Ordered start => (start + N.of_nat count <=? u64_max)%N | _ => true end.
Lemma fit_ok : forall kind count, fit_b kind count = true -> numbers_fit kind count.
Proof. intros [n|] count H; [now apply N.leb_le|exact I]. Qed.
(** standard alerts *)
Definition alert_b (t : alert_type) : bool :=
  match t with
  | Custom s =>
      match s with c :: t => is_alpha c && forallb (fun x => is_alnum x || N.eqb x (ch "_")) t | [] => false end &&
      str_eqb (map to_upper_ascii s) s && forallb (fun x => negb (str_eqb (firstn (List.length (fst x)) s) (fst x))) standard_alerts
  | _ => true
  end.
Lemma alert_ok : forall t, alert_b t = true -> alert_type_ok t.
Proof.
  intros [ | | | | |s] H; try exact I. cbn [alert_b] in H. ands H. split; [|split].
  - destruct s as [|c t]; [discriminate|]. ands H. exists c, t. split; [reflexivity|]. split; [exact H|]. match goal with X : forallb _ t = true |- _ => rewrite forallb_forall in X; apply Forall_forall; intros x J; specialize (X x J) end.
    apply Bool.orb_true_iff in H2 as [E|E]; [now left|right; now apply N.eqb_eq].
  - now apply ParserCode.str_eqb_spec.
  - intros std t rest J E. rewrite forallb_forall in H0. specialize (H0 _ J). cbn [fst] in H0. subst s. rewrite firstn_app, Nat.sub_diag, firstn_O, app_nil_r, firstn_all in H0.
    rewrite (proj2 (ParserCode.str_eqb_spec std std) eq_refl) in H0. discriminate.
Qed.
(** *** code *)
Definition closes_b (c : char) (n : nat) (l : str) : bool :=
  existsb (fun a => forallb (N.eqb c) (skipn a l) && (n <=? List.length (skipn a l))) [0; 1; 2; 3].
Lemma closes_ok : forall c n l, closes_b c n l = false -> ~ closes_fence c n l.
Proof.
  intros c n l H (a & m & A & M & ->). enough (X : closes_b c n (rep a c_sp ++ rep m c) = true) by congruence.
  apply existsb_exists. exists a. split; [do 4 (destruct a; [cbn; tauto|]); lia|].
  assert (L : List.length (rep a c_sp) = a) by apply repeat_length. rewrite <- L at 1 3. rewrite skipn_app, skipn_all, Nat.sub_diag. cbn [skipn app]. apply andb_true_intro. split; [|apply Nat.leb_le; unfold rep; rewrite repeat_length; exact M].
  apply forallb_forall. intros x J. apply repeat_spec in J. subst x. apply N.eqb_refl.
Qed.
Definition line_b (s : str) : bool := negb (mem c_nl s) && negb (mem c_cr s).
Lemma line_ok : forall s, line_b s = true -> one_liner s.
Proof. intros s H. unfold line_b in H. ands H. split; apply mem_not; now apply Bool.negb_true_iff. Qed.
Definition fence_b (info : option str) (s : str) : bool :=
  match info with Some i => match i with [] => false | _ => true end && line_b i && negb (head_is (N.eqb (ch "`")) i) | None => true end &&
  negb (mem c_cr s) && forallb (fun l => negb (closes_b (ch "`") 3 l)) (split_lines s).
Lemma fence_ok : forall info s, fence_b info s = true -> fence_info info /\ fence_content s.
Proof.
  intros info s H. unfold fence_b in H. ands H. split; [|split].
  - destruct info as [i|]; [|exact I]. ands H. split; [destruct i; [discriminate|congruence]|]. split; [now apply line_ok|].
    intros t E. match goal with X : negb (head_is _ i) = true |- _ => apply Bool.negb_true_iff in X; apply (head_eq_not _ _ X) end. exists t. exact E.
  - apply mem_not. now apply Bool.negb_true_iff.
  - apply Forall_forall. intros l J. rewrite forallb_forall in H0. apply closes_ok, Bool.negb_true_iff. exact (H0 l J).
Qed.
Fixpoint drop_spaces (s : str) : nat * str :=
  match s with c :: t => if N.eqb c c_sp then let '(k, r) := drop_spaces t in (S k, r) else (0, s) | [] => (0, []) end.
Lemma drop_spaces_ok : forall s, s = rep (fst (drop_spaces s)) c_sp ++ snd (drop_spaces s).
Proof.
  induction s as [|c s IH]; [reflexivity|]. cbn [drop_spaces]. destruct (N.eqb c c_sp) eqn:E; [|reflexivity]. apply N.eqb_eq in E. subst c.
  destruct (drop_spaces s) as [k r]. cbn [fst snd] in *. cbn [rep repeat app]. now f_equal.
Qed.
Definition indented_content_b (s : str) : bool :=
  negb (mem c_cr s) && head_is (fun c => negb (is_whitespace c)) (snd (drop_spaces s)) && negb (head_is (N.eqb c_nl) (rev s)).
Lemma indented_content_ok : forall s, indented_content_b s = true -> indented_content s.
Proof.
  intros s H. unfold indented_content_b in H. ands H. split; [apply mem_not; now apply Bool.negb_true_iff|]. split.
  - destruct (snd (drop_spaces s)) as [|c t] eqn:E; [discriminate|]. exists (fst (drop_spaces s)), c, t. split; [|now apply Bool.negb_true_iff].
    rewrite <- E. apply drop_spaces_ok.
  - intros t E. apply Bool.negb_true_iff in H0. apply (head_eq_not _ _ H0). rewrite E, rev_app_distr. exists (rev t). reflexivity.
Qed.
Fixpoint ends_b (c t : str) : bool :=
  if starts_with c t then List.length t =? List.length c else match t with [] => false | _ :: t' => ends_b c t' end.
Lemma starts_prefix : forall c t, starts_with c t = true <-> exists y, t = c ++ y.
Proof.
  induction c as [|x c IH]; intros t; [split; [now exists t|reflexivity]|]. destruct t as [|d t]; cbn [starts_with]; [split; [discriminate|intros (y & E); discriminate]|].
  rewrite Bool.andb_true_iff, IH, N.eqb_eq. split; [intros [-> (y & ->)]; now exists y|intros (y & E); injection E as -> ->; split; [reflexivity|now exists y]].
Qed.
Lemma ends_ok : forall c t, ends_b c t = true -> exists a, t = a ++ c /\ forall x y, a ++ c = x ++ c ++ y -> y = [].
Proof.
  intros c t. induction t as [|d t IH]; cbn [ends_b]; intros H.
  - destruct (starts_with c []) eqn:E; [|discriminate]. apply starts_prefix in E as (y & E). symmetry in E. apply app_eq_nil in E as [-> ->]. exists []. split; [reflexivity|]. intros x y E. symmetry in E. now apply app_eq_nil in E as [_ E].
  - destruct (starts_with c (d :: t)) eqn:E.
    + apply Nat.eqb_eq in H. apply starts_prefix in E as (y & E). rewrite E in *. rewrite app_length in H. assert (y = []) by (destruct y; [reflexivity|cbn in H; lia]). subst y. rewrite app_nil_r. exists []. split; [reflexivity|].
      intros x y E2. cbn [app] in E2. apply (f_equal (@List.length _)) in E2. rewrite !app_length in E2. destruct y; [reflexivity|cbn in E2; lia].
    + destruct (IH H) as (a & -> & U). exists (d :: a). split; [reflexivity|]. intros [|z x] y E2.
      * cbn [app] in E2. rewrite (proj2 (starts_prefix c (d :: a ++ c))) in E by (exists y; exact E2). discriminate.
      * cbn [app] in E2. injection E2 as _ E2. eapply U, E2.
Qed.
Definition letter_marks : list (str * str) := map (fun k => (lit "<!" ++ [N.of_nat (65 + k)], lit ">")) (seq 0 26).
Definition html_b (s : str) : bool :=
  negb (mem c_cr s) && existsb (fun m => starts_with (fst m) s && ends_b (snd m) (skipn (List.length (fst m)) s)) (html_marks ++ letter_marks).
Lemma html_ok : forall s, html_b s = true -> closed_html s.
Proof.
  intros s H. unfold html_b in H. ands H. split; [apply mem_not; now apply Bool.negb_true_iff|]. left.
  apply existsb_exists in H0 as ((o, c) & J & K). cbn [fst snd] in K. ands K. apply starts_prefix in K as (y & ->). rewrite skipn_app, skipn_all, Nat.sub_diag in H0. cbn [skipn app] in H0.
  destruct (ends_ok _ _ H0) as (a & -> & U). exists o, c, a. split; [|now repeat split]. apply in_app_or in J as [J|J]; [now left|right].
  apply in_map_iff in J as (k & E & J). pose proof (f_equal fst E) as E1. pose proof (f_equal snd E) as E2. cbn [fst snd] in E1, E2. subst o c. split; [reflexivity|]. exists (65 + N.of_nat k)%N. apply in_seq in J. split; [apply andb_true_intro; split; apply N.leb_le; lia|].
  replace (65 + N.of_nat k)%N with (N.of_nat (65 + k)) by (rewrite Nnat.Nat2N.inj_add; reflexivity). reflexivity.
Qed.
Lemma text_eqb : forall s t : str, list_eqb N.eqb s t = true <-> s = t.
Proof. intros s t. apply list_eqb_eq. apply Forall_forall. intros x _ y. apply N.eqb_eq. Qed.
(** end tags *)
Definition end_tag_b (e : str) : bool :=
  match e with
  | c :: d :: t => N.eqb c (ch "<") && N.eqb d (ch "/") && existsb (fun n => list_eqb N.eqb (map to_lower (removelast t)) n) SpecBlock.raw_names && match rev t with x :: _ => N.eqb x (ch ">") | [] => false end
  | _ => false
  end.
Lemma end_tag_ok : forall e, end_tag_b e = true <-> end_tag e.
Proof.
  intros e. split.
  - destruct e as [|c [|d t]]; try discriminate. cbn [end_tag_b]. intros H. ands H. apply N.eqb_eq in H; apply N.eqb_eq in H2. subst c d. apply existsb_exists in H1 as (n & I & E). apply (proj1 (text_eqb _ _)) in E.
    exists (removelast t). split; [now rewrite E|]. destruct (rev t) as [|x u] eqn:R; [discriminate|]. apply N.eqb_eq in H0. subst x. apply (f_equal (@rev _)) in R. rewrite rev_involutive in R. cbn [rev] in R. rewrite R, removelast_last. reflexivity.
  - intros (t & I & ->). change (existsb (fun n => list_eqb N.eqb (map to_lower (removelast (t ++ [ch ">"]))) n) SpecBlock.raw_names && match rev (t ++ [ch ">"]) with x :: _ => N.eqb x (ch ">") | [] => false end = true). rewrite removelast_last, rev_app_distr. cbn [rev app]. rewrite N.eqb_refl, Bool.andb_true_r. apply existsb_exists. exists (map to_lower t). split; [exact I|]. now apply text_eqb.
Qed.
Fixpoint ends_raw (s : str) : bool :=
  match s with
  | [] => false
  | _ :: t => if existsb (fun n => end_tag_b (firstn (List.length n + 3) s)) SpecBlock.raw_names then end_tag_b s else ends_raw t
  end.
Lemma end_tag_alone : forall f g x y, end_tag f -> end_tag g -> f = x ++ g ++ y -> y = [].
Proof.
  intros f g x y (t & It & ->) (u & Iu & ->) E. destruct y as [|c y]; [reflexivity|exfalso]. destruct (exists_last (l := c :: y)) as (y' & d & Ey); [discriminate|]. rewrite Ey in E.
  assert (E2 : (lit "</" ++ t) ++ [ch ">"] = (x ++ (lit "</" ++ u ++ lit ">") ++ y') ++ [d]) by (rewrite <- !app_assoc in *; exact E). apply app_inj_tail in E2 as [E2 _].
  assert (I : In (ch ">") (lit "</" ++ t)) by (rewrite E2; apply in_or_app; right; apply in_or_app; left; apply in_or_app; right; apply in_or_app; right; now left).
  apply in_app_or in I as [I|I]; [cbn in I; intuition discriminate|]. now apply (raw_low t _ It) in I.
Qed.
Lemma ends_raw_ok : forall s, ends_raw s = true -> exists a e, s = a ++ e /\ end_tag e /\ forall x f y, a ++ e = x ++ f ++ y -> end_tag f -> y = [].
Proof.
  induction s as [|c s IH]; cbn [ends_raw]; intros H; [discriminate|]. destruct (existsb _ _) eqn:X.
  - apply end_tag_ok in H. exists [], (c :: s). split; [reflexivity|]. split; [exact H|]. intros x f y E F. now apply (end_tag_alone (c :: s) f x y).
  - destruct (IH H) as (a & e & -> & He & U). exists (c :: a), e. split; [reflexivity|]. split; [exact He|]. intros [|d x] f y E F; [|injection E as _ E; now apply (U x f y)]. exfalso.
    enough (Y : existsb (fun n => end_tag_b (firstn (List.length n + 3) (c :: a ++ e))) SpecBlock.raw_names = true) by congruence.
    pose proof F as (t & It & Ef). apply existsb_exists. exists (map to_lower t). split; [exact It|]. apply end_tag_ok. change (c :: a ++ e) with ((c :: a) ++ e). rewrite E. cbn [app].
    replace (List.length (map to_lower t) + 3) with (List.length f) by (rewrite Ef, !app_length, map_length; cbn; lia). rewrite firstn_app, firstn_all, Nat.sub_diag. cbn [firstn]. now rewrite app_nil_r.
Qed.
Definition raw_html_b (s : str) : bool :=
  negb (mem c_cr s) && match s with
  | o :: m => N.eqb o (ch "<") && existsb (fun q => existsb (list_eqb N.eqb (map to_lower (firstn (List.length q) m))) SpecBlock.raw_names &&
      match skipn (List.length q) m with x :: t => existsb (N.eqb x) [c_sp; ch ">"; c_nl] && ends_raw t | [] => false end) SpecBlock.raw_names
  | [] => false
  end.
Lemma raw_html_ok : forall s, raw_html_b s = true -> closed_html s.
Proof.
  intros s H. unfold raw_html_b in H. ands H. split; [apply mem_not; now apply Bool.negb_true_iff|]. right. destruct s as [|o m]; [discriminate|]. ands H0. apply N.eqb_eq in H0. subst o.
  apply existsb_exists in H1 as (q & _ & K). ands K. apply existsb_exists in K as (n & In1 & En). apply (proj1 (text_eqb _ _)) in En.
  destruct (skipn (List.length q) m) as [|x t] eqn:Sk; [discriminate|]. ands H0. apply existsb_exists in H0 as (c & Ic & Ec). apply N.eqb_eq in Ec. subst c.
  destruct (ends_raw_ok _ H1) as (a & e & -> & He & U). exists (firstn (List.length q) m), x, a, e. split; [now rewrite En|]. split; [exact Ic|]. split; [exact He|]. split; [|exact U]. rewrite <- Sk, firstn_skipn. reflexivity.
Qed.
(** no line of spaces in [s] before its last line *)
Fixpoint no_blank (s : str) : bool :=
  let fix blank (t : str) : bool := match t with [] => false | c :: t => if N.eqb c c_nl then true else is_space c && blank t end in
  match s with [] => true | c :: t => negb (N.eqb c c_nl && blank t) && no_blank t end.
Definition block_tag_b (n : str) : bool :=
  existsb (list_eqb N.eqb (map to_lower n)) SpecBlock.block_names && forallb (fun m => negb (starts_with m (map to_lower n)) || (List.length m =? List.length n)) SpecBlock.block_names.
Definition tag_html_b (s : str) : bool :=
  negb (mem c_cr s) && no_blank s &&
  existsb (fun o => existsb (fun k => existsb (fun x =>
    let m := skipn (List.length o) s in let n := firstn k m in
    starts_with o s && block_tag_b n && starts_with x (skipn k m) && match rev (skipn (List.length x) (skipn k m)) with [] => false | c :: _ => N.eqb c c_nl end)
    [lit " "; lit ">"; lit "/>"]) (seq 1 10)) [lit "<"; lit "</"].
Lemma blank_ok : forall w v, all is_space w -> forall b, b = w ++ c_nl :: v ->
  (fix blank (t : str) : bool := match t with [] => false | c :: t => if N.eqb c c_nl then true else is_space c && blank t end) b = true.
Proof.
  intros w v F b ->. induction F as [|c w H F IH]; [reflexivity|]. cbn [app]. destruct (N.eqb c c_nl); [reflexivity|]. now rewrite H.
Qed.
Lemma no_blank_ok : forall s, no_blank s = true -> forall u w v, all is_space w -> s <> u ++ c_nl :: w ++ c_nl :: v.
Proof.
  induction s as [|c s IH]; intros H u w v F E; [destruct u; discriminate|]. cbn [no_blank] in H. apply andb_prop in H as [H1 H2]. destruct u as [|d u].
  - injection E as -> E. cbn [app] in E. rewrite (blank_ok w v F s E) in H1. discriminate.
  - injection E as _ E. exact (IH H2 u w v F E).
Qed.
Lemma block_tag_ok : forall n, block_tag_b n = true -> block_tag n.
Proof.
  intros n H. unfold block_tag_b in H. ands H. split.
  - apply existsb_exists in H as (m & I & E). apply (proj1 (text_eqb _ _)) in E. now rewrite E.
  - intros m k I E. rewrite forallb_forall in H0. specialize (H0 m I). apply Bool.orb_true_iff in H0 as [X|X].
    + apply Bool.negb_true_iff in X. rewrite (proj2 (starts_prefix m _)) in X by (exists k; exact E). discriminate.
    + apply Nat.eqb_eq in X. apply (f_equal (@List.length _)) in E. rewrite map_length, app_length in E. destruct k; [reflexivity|cbn in E; lia].
Qed.
Lemma tag_html_ok : forall s, tag_html_b s = true -> tag_html s.
Proof.
  intros s H. unfold tag_html_b in H. ands H. split; [apply mem_not; now apply Bool.negb_true_iff|].
  apply existsb_exists in H0 as (o & Io & K). apply existsb_exists in K as (k & _ & K). apply existsb_exists in K as (x & Ix & K). cbv zeta in K. ands K.
  apply starts_prefix in K as (m & ->). rewrite skipn_app, skipn_all, Nat.sub_diag in *. cbn [skipn app] in *. apply starts_prefix in H2 as (y & Ey). rewrite Ey in H0. rewrite skipn_app, skipn_all, Nat.sub_diag in H0. cbn [skipn app] in H0.
  destruct (rev y) as [|c z] eqn:R; [discriminate|]. apply N.eqb_eq in H0. subst c. apply (f_equal (@rev _)) in R. rewrite rev_involutive in R. cbn [rev] in R. subst y.
  exists o, (firstn k m), x, (rev z). split; [exact Io|]. split; [now apply block_tag_ok|]. split; [exact Ix|]. split; [rewrite <- Ey; now rewrite firstn_skipn|].
  intros u w v F E. apply (no_blank_ok _ H1 (o ++ firstn k m ++ x ++ u) w v F). rewrite <- (firstn_skipn k m) at 1. rewrite Ey, E, <- !app_assoc. reflexivity.
Qed.
(** complete tags without attributes *)
Definition lone_html_b (s : str) : bool :=
  negb (mem c_cr s) &&
  existsb (fun o => existsb (fun k => existsb (fun u =>
    let m := skipn (List.length o) s in let n := firstn k m in let t := skipn (List.length u) (skipn k m) in
    starts_with o s && starts_with u (skipn k m) && (str_eqb o (lit "<") || str_eqb u (lit ">")) &&
    match n with c :: n' => is_alpha c && forallb SpecBlock.tag_char n' | [] => false end &&
    negb (existsb (str_eqb (map to_lower n)) SpecBlock.block_names) && negb (existsb (str_eqb (map to_lower n)) SpecBlock.raw_names) &&
    match t with x :: b => existsb (N.eqb x) [c_sp; c_nl] &&
      match rev b with c :: d :: a => N.eqb c c_nl && N.eqb d c_nl && no_blank (rev a ++ [c_nl]) | _ => false end
    | [] => false end)
    [lit ">"; lit "/>"]) (seq 1 20)) [lit "<"; lit "</"].
Lemma name_not : forall n l, existsb (str_eqb n) l = false -> ~ In n l.
Proof.
  intros n l H I. enough (X : existsb (str_eqb n) l = true) by congruence. apply existsb_exists. exists n. split; [exact I|]. now apply HtmlFacts.str_eqb_eq.
Qed.
Lemma tag_lone : forall o c n u, In o [lit "<"; lit "</"] -> In u [lit ">"; lit "/>"] -> (o = lit "<" \/ u = lit ">") -> is_alpha c = true -> all SpecBlock.tag_char n ->
  ~ In (map to_lower (c :: n)) SpecBlock.block_names -> ~ In (map to_lower (c :: n)) SpecBlock.raw_names -> lone_tag (o ++ (c :: n) ++ u).
Proof.
  intros o c n u Io Iu Hou Hc Hn Nb Nr.
  assert (U : exists d u', u = d :: u' /\ SpecBlock.tag_char d = false /\ is_space d = false).
  { cbn in Iu. destruct Iu as [<-|[<-|[]]]; eexists _, _; repeat split. }
  destruct U as (d & u' & -> & Hd & Sd). exists o, c, n, d, u'. split; [exact Io|]. split; [reflexivity|]. split; [exact Hc|]. split; [exact Hn|]. split; [exact Hd|]. split; [exact Nb|].
  assert (L : forall r, SpecBlock.tag_name ((c :: n) ++ d :: r) (c :: n) (d :: r)).
  { intros r. split; [|now exists c, n]. split; [reflexivity|]. split; [constructor; [unfold SpecBlock.tag_char, is_alnum; now rewrite Hc|exact Hn]|]. intros e (z & Ez). now injection Ez as <- _. }
  cbn in Io. destruct Io as [<-|[<-|[]]].
  - left. intros r. exists ((c :: n) ++ d :: u' ++ r), (c :: n), (d :: u' ++ r), [], (d :: u' ++ r), [], (match u' with [] => [] | _ => lit "/" end).
    split; [cbn [lit app]; now rewrite <- app_assoc|]. split; [apply L|]. split; [exact Nr|]. split.
    + constructor. intros (v & r' & _ & w & m1 & m2 & E & Nw & Fw & _). destruct w as [|x w]; [congruence|]. injection E as <- _. inversion Fw; congruence.
    + cbn in Iu. destruct Iu as [Iu|[Iu|[]]]; injection Iu as <- <-; (split; [reflexivity|]; split; [constructor|]); [now left|right; now left].
  - destruct Hou as [Hou|Hou]; [discriminate|]. injection Hou as -> ->. right. intros r. exists ((c :: n) ++ ch ">" :: r), (c :: n), [].
    split; [cbn [lit app]; now rewrite <- app_assoc|]. split; [apply L|constructor].
Qed.
Lemma lone_html_ok : forall s, lone_html_b s = true -> lone_html s.
Proof.
  intros s H. unfold lone_html_b in H. ands H. split; [apply mem_not; now apply Bool.negb_true_iff|].
  apply existsb_exists in H0 as (o & Io & K). apply existsb_exists in K as (k & _ & K). apply existsb_exists in K as (u & Iu & K). cbv zeta in K. ands K.
  apply starts_prefix in K as (m & ->). rewrite skipn_app, skipn_all, Nat.sub_diag in *. cbn [skipn app] in *. apply starts_prefix in H5 as (y & Ey). rewrite Ey in H0. rewrite skipn_app, skipn_all, Nat.sub_diag in H0. cbn [skipn app] in H0.
  destruct (firstn k m) as [|c n] eqn:Ef; [discriminate|]. ands H3.
  destruct y as [|x b]; [discriminate|]. ands H0. destruct (rev b) as [|e [|d a]] eqn:R; try discriminate. apply andb_prop in H6 as [H6 Hb]. apply andb_prop in H6 as [He Hd]. apply N.eqb_eq in He, Hd. subst e d.
  apply (f_equal (@rev _)) in R. rewrite rev_involutive in R. cbn [rev] in R.
  exists (o ++ (c :: n) ++ u), x, (rev a), []. split; [|split; [|split; [constructor|split]]].
  - apply tag_lone; try assumption.
    + apply Bool.orb_true_iff in H4 as [X|X]; apply HtmlFacts.str_eqb_eq in X; auto.
    + apply Forall_forall. intros q Q. rewrite forallb_forall in H5. now apply H5.
    + apply name_not. now apply Bool.negb_true_iff.
    + apply name_not. now apply Bool.negb_true_iff.
  - apply existsb_exists in H0 as (q & Q & Eq). apply N.eqb_eq in Eq. now subst q.
  - rewrite <- (firstn_skipn k m), Ef, Ey, R. repeat (progress (rewrite <- ?app_assoc; cbn [app])). reflexivity.
  - now apply no_blank_ok.
Qed.
Fixpoint compact_b (b : block) : bool :=
  match b with
  | BList (MkList _ items) => forallb (fun it => (List.length (li_blocks it) <=? 1) && forallb compact_b (li_blocks it)) items
  | BCodeBlock (CodeBlock _ s) | BHtmlBlock s => forallb (existsb (fun c => negb (is_whitespace c))) (split_lines s)
  | _ => true
  end.
Lemma compact_ok : forall b, compact_b b = true -> compact b.
Proof.
  induction b as [c|h| |bs IH|kind items IH|c|s|d|t|f bs IH|g bs IH|] using block_ind'; intros H; try exact I.
  2:{ destruct c as [k s]. cbn [compact_b] in H. rewrite forallb_forall in H. apply Forall_forall. intros l J. specialize (H l J). apply existsb_exists in H as (x & X & Y). apply Exists_exists. exists x. split; [exact X|now apply Bool.negb_true_iff]. }
  2:{ cbn [compact_b] in H. rewrite forallb_forall in H. apply Forall_forall. intros l J. specialize (H l J). apply existsb_exists in H as (x & X & Y). apply Exists_exists. exists x. split; [exact X|now apply Bool.negb_true_iff]. }
  apply compact_list. rewrite Forall_forall in IH. apply Forall_forall. intros it J. cbn [compact_b] in H. rewrite forallb_forall in H. specialize (H it J). apply andb_prop in H as [H1 H2]. split; [now apply Nat.leb_le|].
  specialize (IH it J). rewrite Forall_forall in IH. apply Forall_forall. intros b K. rewrite forallb_forall in H2. now apply IH, H2.
Qed.
Definition cell_b (c : list inline) : bool :=
  rich_b 10 c && match c with [] => true | _ => tight_b (source c) end && break_free c && negb (mem (ch "|") (source c)).
Definition left_b (a : alignment) : bool := match a with ALeft => true | _ => false end.
Definition table_b (t : table) : bool :=
  match t_rows t with [] => false | _ => true end && match t_alignments t with [] => false | _ => true end &&
  forallb (fun row => List.length row =? List.length (t_alignments t)) (t_rows t) && negb (existsb left_b (t_alignments t)) && forallb (forallb cell_b) (t_rows t).
Lemma cell_ok : forall c, cell_b c = true -> plain_cell c.
Proof.
  intros c H. unfold cell_b in H. ands H. split; [now apply (rich_ok 10)|]. split; [destruct c; [now left|right; now apply tight_ok]|]. split; [now apply break_free_ok|]. apply mem_not. now apply Bool.negb_true_iff.
Qed.
Lemma table_ok : forall t, table_b t = true -> plain_table t.
Proof.
  intros t H. unfold table_b in H. ands H. split; [destruct (t_rows t); [discriminate|congruence]|]. split; [destruct (t_alignments t); [discriminate|congruence]|]. split; [|split].
  - unfold md_rectangular. apply Forall_forall. intros row I. rewrite forallb_forall in H2. now apply Nat.eqb_eq, H2.
  - intro I. apply Bool.negb_true_iff in H1. assert (X : existsb left_b (t_alignments t) = true) by (apply existsb_exists; now exists ALeft). congruence.
  - apply Forall_forall. intros row I. rewrite forallb_forall in H0. specialize (H0 row I). rewrite forallb_forall in H0. apply Forall_forall. intros c J. apply cell_ok. now apply H0.
Qed.
(** *** link definitions *)
Definition label_b (p : place) (l : list inline) : bool :=
  rich_b 10 l && wrap_b l && brackets_b (source l) && negb (head_is (N.eqb (ch "^")) (source l)) && negb (quote_place p && head_is (N.eqb (ch "!")) (source l)) &&
  (negb (item_place_b p) || break_free l) && ((margin p =? 0) || forallb (fun c => negb (is_whitespace c)) (source l)).
Lemma label_ok : forall p l, label_b p l = true -> plain_label udigit p l.
Proof.
  intros p l H. unfold label_b in H. ands H. split; [now apply (rich_ok 10)|]. split; [|split; [now apply brackets_ok|split; [|split; [|split]]]].
  - intros t I. match goal with X : wrap_b l = true |- _ => unfold wrap_b in X; rewrite forallb_forall in X; specialize (X _ I) end. now apply safe_ok.
  - apply head_eq_not. now apply Bool.negb_true_iff.
  - intros ->. apply head_eq_not. now apply Bool.negb_true_iff.
  - intros (n & ->). now apply break_free_ok.
  - match goal with X : _ || _ = true |- _ => apply Bool.orb_true_iff in X as [X|X] end; [left; now apply Nat.eqb_eq|right].
    apply Forall_forall. intros c I. match goal with X : forallb _ _ = true |- _ => rewrite forallb_forall in X; apply Bool.negb_true_iff, (X c I) end.
Qed.
Fixpoint plain_b (p : place) (b : block) : bool :=
  match b with
  | BParagraph c => paragraph_b p c
  | BHeading (Heading (Setext l) c) => paragraph_b p c && (negb (item_place_b p) || match l with Level1 => true | Level2 => false end)
  | BHeading (Heading (Atx n) c) => (margin p =? 0) && (1 <=? n)%N && (n <=? 6)%N && rich_b 10 c && tight_b (source c) && break_free c
  | BThematicBreak => negb (item_place_b p)
  | BTable t => negb (item_place_b p) && table_b t
  | BHtmlBlock s => (match p with Top => true | _ => false end || negb (mem c_nl s)) && (html_b s || raw_html_b s) || match p with Top => true | _ => false end && (tag_html_b s || lone_html_b s)
  | BDefinition (LinkDefinition l d t) => label_b p l && target_b d t
  | BCodeBlock (CodeBlock (Fenced info) s) => negb (item_place_b p) && fence_b info s
  | BCodeBlock (CodeBlock Indented s) => match p with Top => true | _ => false end && indented_content_b s
  | BBlockQuote bs => match bs with [] => false | _ => true end && orderly_b Quote bs && forallb (plain_b Quote) bs
  | BGitHubAlert (GitHubAlert t bs) => alert_b t && orderly_b Alert bs && forallb (fun b => compact_b b && plain_b Alert b) bs
  | BList (MkList kind items) =>
      md_empty_line_before_list config && (margin p + md_spaces_before_list_item config <=? 3) && match items with [] => false | _ => true end &&
      even_b kind (List.length items) && fit_b kind (List.length items) &&
      let q := Item (margin p + content_indent config kind (List.length items)) in
      forallb (fun it => first_b (li_task it) (li_blocks it) && orderly_b q (li_blocks it) && forallb (plain_b q) (li_blocks it)) items
  | _ => false
  end.
Lemma plain_ok : forall b p, plain_b p b = true -> plain_block udigit config p b.
Proof.
  induction b as [c|h| |bs IH|kind items IH|c|s|d|t|f bs IH|g bs IH|] using block_ind'; intros p H; cbn [plain_b] in H; try discriminate.
  - now apply paragraph_ok.
  - destruct h as [[n|l] c].
    + ands H. split; [now apply Nat.eqb_eq|]. split; [split; now apply N.leb_le|]. split; [now apply (rich_ok 10)|]. split; [now apply tight_ok|now apply break_free_ok].
    + apply andb_prop in H as [H1 H2]. split; [now apply paragraph_ok|]. intros (n & ->). destruct l; [reflexivity|discriminate].
  - intros (n & ->). discriminate.
  - ands H. apply plain_quote. split; [destruct bs; [discriminate|congruence]|]. split; [now apply orderly_ok|]. rewrite Forall_forall in IH. apply Forall_forall. intros b I. match goal with X : forallb _ bs = true |- _ => rewrite forallb_forall in X; now apply IH, X end.
  - ands H. apply plain_list. split; [exact H|]. split; [now apply Nat.leb_le|]. split; [destruct items; [discriminate|congruence]|]. split; [now apply even_ok|]. split; [now apply fit_ok|].
    rewrite Forall_forall in IH. apply Forall_forall. intros it I. match goal with X : forallb _ items = true |- _ => rewrite forallb_forall in X; specialize (X it I); ands X end.
    split; [now apply first_ok|]. split; [now apply orderly_ok|]. specialize (IH it I). rewrite Forall_forall in IH. apply Forall_forall. intros b J. match goal with X : forallb _ (li_blocks it) = true |- _ => rewrite forallb_forall in X; now apply IH, X end.
  - destruct c as [[|info] s]; ands H.
    + split; [destruct p; try discriminate; reflexivity|now apply indented_content_ok].
    + split; [intros (n & ->); discriminate|now apply fence_ok].
  - apply Bool.orb_true_iff in H as [H|H].
    + ands H. left. split; [|apply Bool.orb_true_iff in H0 as [H0|H0]; [now apply html_ok|now apply raw_html_ok]]. apply Bool.orb_true_iff in H as [H|H]; [left; destruct p; (reflexivity || discriminate)|right; apply mem_not; now apply Bool.negb_true_iff].
    + ands H. right. split; [destruct p; (reflexivity || discriminate)|]. apply Bool.orb_true_iff in H0 as [H0|H0]; [left; now apply tag_html_ok|right; now apply lone_html_ok].
  - destruct d as [l d t]. ands H. split; [now apply label_ok|now apply target_ok].
  - ands H. split; [intros (n & ->); discriminate|now apply table_ok].
  - ands H. apply plain_alert. split; [now apply alert_ok|]. split; [now apply orderly_ok|]. rewrite Forall_forall in IH. apply Forall_forall. intros b J. match goal with X : forallb _ bs = true |- _ => rewrite forallb_forall in X; specialize (X b J); ands X end. split; [now apply compact_ok|now apply IH].
Qed.
End Check.
