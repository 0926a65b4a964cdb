(** Reading back printed blocks. *)
From Coq Require Import String Lia.
From Verif Require Export LineFacts SpecRound.
Import ListNotations.
Open Scope list_scope.
Local Notation len := (@List.length _).

Lemma white_inked : forall c, is_whitespace c = false -> inked c.
Proof.
  intros c H. assert (X : forall d, is_whitespace d = true -> c <> d) by (intros d Hd ->; congruence).
  repeat split; [apply X; reflexivity|apply X; reflexivity|]. unfold is_space.
  destruct (N.eqb_spec c 32); [subst; discriminate|]. destruct (N.eqb_spec c 9); [subst; discriminate|]. reflexivity.
Qed.
(** ** Lines of a text *)
Definition nl_free (l : str) : Prop := ~ In c_nl l.
Lemma split_ne : forall s, split_lines s <> [].
Proof. intros [|c s]; [discriminate|]. cbn. destruct (N.eqb c c_nl); [discriminate|]. now destruct (split_lines s). Qed.
Lemma split_join : forall s, join [c_nl] (split_lines s) = s.
Proof.
  induction s as [|c s IH]; [reflexivity|]. cbn [split_lines]. destruct (N.eqb_spec c c_nl) as [->|].
  - pose proof (split_ne s). destruct (split_lines s); [congruence|]. cbn in *. now rewrite IH.
  - pose proof (split_ne s). destruct (split_lines s) as [|l ls]; [congruence|]. destruct ls; cbn in *; now rewrite IH.
Qed.
Lemma split_free : forall s, Forall nl_free (split_lines s).
Proof.
  induction s as [|c s IH]; [repeat constructor; intros []|]. cbn [split_lines]. destruct (N.eqb_spec c c_nl) as [->|].
  - constructor; [intros []|exact IH].
  - destruct (split_lines s) as [|l ls]; [repeat constructor; intros [E|[]]; congruence|]. inversion IH; subst. constructor; [|assumption].
    intros [E|E]; [congruence|]. auto.
Qed.
Lemma split_app : forall l s, nl_free l -> split_lines (l ++ c_nl :: s) = l :: split_lines s.
Proof.
  induction l as [|c l IH]; intros s H; cbn [app split_lines].
  - now rewrite N.eqb_refl.
  - destruct (N.eqb_spec c c_nl) as [->|]; [elim H; now left|]. rewrite IH; [reflexivity|]. intro I. apply H. now right.
Qed.
Lemma split_one : forall l, nl_free l -> split_lines l = [l].
Proof.
  induction l as [|c l IH]; intros H; [reflexivity|]. cbn [split_lines].
  destruct (N.eqb_spec c c_nl) as [->|]; [elim H; now left|]. rewrite IH; [reflexivity|]. intro I. apply H. now right.
Qed.
Lemma join_cons : forall sep x l, l <> [] -> join sep (x :: l) = x ++ sep ++ join sep l.
Proof. intros sep x [|y l] H; [congruence|reflexivity]. Qed.
Lemma join_split : forall ls, ls <> [] -> Forall nl_free ls -> split_lines (join [c_nl] ls) = ls.
Proof.
  induction ls as [|l ls IH]; intros Hn Hf; [congruence|]. inversion Hf; subst. destruct ls as [|l2 ls]; [now apply split_one|].
  rewrite join_cons by discriminate. cbn [app]. rewrite split_app by assumption. rewrite IH; [reflexivity|discriminate|assumption].
Qed.
Lemma split_app2 : forall a b, split_lines (a ++ c_nl :: b) = split_lines a ++ split_lines b.
Proof.
  intros a b. rewrite <- (split_join a) at 1. pose proof (split_ne a) as N. pose proof (split_free a) as F.
  induction (split_lines a) as [|l ls IH]; [congruence|]. inversion F; subst. destruct ls as [|l2 ls].
  - cbn [join app]. now apply split_app.
  - rewrite join_cons by discriminate. rewrite <- !app_assoc. cbn [app]. rewrite split_app by assumption. f_equal. apply IH; [discriminate|assumption].
Qed.
(** the text with [k] spaces in front of every line *)
Definition pre (k : nat) (s : str) : str := join [c_nl] (map (app (rep k c_sp)) (split_lines s)).
Lemma pre_cons : forall k l s, nl_free l -> pre k (l ++ c_nl :: s) = rep k c_sp ++ l ++ c_nl :: pre k s.
Proof.
  intros k l s H. unfold pre. rewrite split_app by exact H. cbn [map]. rewrite join_cons; [now rewrite <- !app_assoc|].
  pose proof (split_ne s). destruct (split_lines s); [congruence|discriminate].
Qed.
Lemma pre_one : forall k l, nl_free l -> pre k l = rep k c_sp ++ l.
Proof. intros k l H. unfold pre. now rewrite split_one. Qed.
Lemma join_app : forall sep a b, a <> [] -> b <> [] -> join sep (a ++ b) = join sep a ++ sep ++ join sep b.
Proof.
  intros sep a b Ha Hb. induction a as [|x a IH]; [congruence|]. destruct a as [|y a].
  - cbn [app]. rewrite join_cons by assumption. reflexivity.
  - change ((x :: y :: a) ++ b) with (x :: (y :: a) ++ b). rewrite join_cons by discriminate. rewrite IH by discriminate.
    rewrite (join_cons _ x (y :: a)) by discriminate. now rewrite <- !app_assoc.
Qed.
Lemma pre_app : forall k a b, pre k (a ++ c_nl :: b) = pre k a ++ c_nl :: pre k b.
Proof.
  intros k a b. unfold pre. rewrite split_app2, map_app. rewrite join_app; [reflexivity| |];
    intro E; apply map_eq_nil in E; now apply split_ne in E.
Qed.
Lemma pre_0 : forall s, pre 0 s = s.
Proof. intros s. unfold pre. rewrite <- (split_join s) at 2. f_equal. cbn. now rewrite map_id. Qed.

(** [k] spaces behind every line break *)
Definition ind (k : nat) (s : str) : str := flat_map (fun c => if N.eqb c c_nl then c_nl :: rep k c_sp else [c]) s.
Lemma ind_app : forall k a b, ind k (a ++ b) = ind k a ++ ind k b.
Proof. intros. apply flat_map_app. Qed.
Lemma ind_free : forall k l, nl_free l -> ind k l = l.
Proof.
  intros k l H. induction l as [|c l IH]; [reflexivity|]. cbn [ind flat_map]. fold (ind k l). destruct (N.eqb_spec c c_nl) as [->|]; [elim H; now left|].
  cbn [app]. rewrite IH; [reflexivity|]. intro I. apply H. now right.
Qed.
Lemma ind_nl : forall k s, ind k (c_nl :: s) = c_nl :: rep k c_sp ++ ind k s. Proof. reflexivity. Qed.
Lemma ind_cons : forall k c s, c <> c_nl -> ind k (c :: s) = c :: ind k s.
Proof. intros k c s H. cbn [ind flat_map]. destruct (N.eqb_spec c c_nl); [contradiction|reflexivity]. Qed.
Lemma first_line : forall o, (nl_free o /\ split_lines o = [o]) \/ exists l b, nl_free l /\ o = l ++ c_nl :: b /\ split_lines o = l :: split_lines b.
Proof.
  intros o. pose proof (split_free o) as F. pose proof (split_join o) as J. pose proof (split_ne o) as N.
  destruct (split_lines o) as [|l ls] eqn:E; [congruence|]. inversion F as [|? ? F1 F2]; subst. destruct ls as [|l2 ls]; [left; now split|right].
  exists l, (join [c_nl] (l2 :: ls)). split; [exact F1|]. split; [reflexivity|]. now rewrite join_split by (assumption || discriminate).
Qed.
Lemma pre_ind : forall k s, pre k s = rep k c_sp ++ ind k s.
Proof.
  intros k s. remember (len s) as n eqn:E. assert (H : len s <= n) by lia. clear E. revert s H. induction n as [|n IH]; intros s H.
  - destruct s; [cbn; now rewrite app_nil_r|cbn in H; lia].
  - destruct (first_line s) as [[F _]|(l & b & F & -> & _)]; [now rewrite pre_one, ind_free|].
    rewrite pre_cons by exact F. rewrite IH by (rewrite app_length in H; cbn [List.length] in H; unfold str, char in *; lia). rewrite ind_app, ind_nl, (ind_free k l F). reflexivity.
Qed.

(** ** What follows a block: nothing, or a blank line *)
Definition blank_tail (r : str) : Prop := r = [] \/ exists k t, r = c_nl :: rep k c_sp ++ c_nl :: t.
Lemma blank_tail_stops : forall r, blank_tail r -> stops r.
Proof. intros r [->|(k & t & ->)]; [exact I|reflexivity]. Qed.

Lemma len_cons : forall A (x : A) l, len (x :: l) = S (len l). Proof. reflexivity. Qed.
Lemma len_rep : forall A n (x : A), len (repeat x n) = n. Proof. intros. apply repeat_length. Qed.
Lemma len_nil : forall A, len (@nil A) = 0. Proof. reflexivity. Qed.
#[global] Hint Rewrite app_length len_cons len_rep len_nil : lens.
Section Reading.
Variables (entities : str -> option str) (punct : char -> bool) (upper : char -> str).
Let cfg := default_config entities punct upper.
Local Notation rec := (block_ cfg).
Lemma cfg_ok : custom_ok cfg. Proof. split; discriminate. Qed.

Definition starters : list (parser unit) :=
      [ conditional_unit (b_heading_v1 cfg) (p_unit (p_heading_v1 cfg));
        conditional_unit (b_heading_v2 cfg) (p_unit p_heading_v2_level);
        conditional_unit (b_thematic_break cfg) p_thematic_break;
        conditional_unit (b_blockquote cfg) (p_unit (p_blockquote rec));
        conditional_unit (b_list cfg) (p_unit (p_list_item rec));
        conditional_unit (b_code_block cfg) (p_unit p_code_block_fenced);
        conditional_unit (b_html_block cfg) (p_unit p_html_block);
        conditional_unit (b_link_definition cfg) (p_unit (p_link_definition cfg));
        conditional_unit (b_footnote_definition cfg) (p_unit (p_footnote_definition rec));
        conditional_unit (b_table cfg) (p_unit (p_table cfg));
        p_unit (p_custom_block cfg);
        p_unit (line_terminated space0) ].
Lemma starters_eq : forall s, p_is_paragraph_line_start cfg rec s = peek (not_ (alt starters)) s.
Proof. reflexivity. Qed.
Lemma starters_safe : Forall safe starters.
Proof.
  pose proof cfg_ok as Hc.
  pose proof (fun n => rel_line_start cfg cfg_ok n rec rec (eats_block_ cfg cfg_ok) (fun m _ => rel_block_ cfg cfg_ok m)) as R.
  unfold starters. repeat apply Forall_cons1; try constructor; apply rel_safe; intro n;
    pose proof (rel_blockquote n _ _ (eats_block_ cfg cfg_ok) (fun m _ => rel_block_ cfg cfg_ok m));
    pose proof (rel_list_item n _ _ (eats_block_ cfg cfg_ok) (fun m _ => rel_block_ cfg cfg_ok m));
    pose proof (rel_footnote_definition n _ _ (eats_block_ cfg cfg_ok) (fun m _ => rel_block_ cfg cfg_ok m));
    pose proof (rel_custom_block cfg cfg_ok n);
    rel.
Qed.
(** some block starts here: no paragraph line *)
Lemma start_err : forall s, Exists (fun p => exists r x, p s = Ok r x) starters -> p_is_paragraph_line_start cfg rec s = Err.
Proof.
  intros s H. rewrite starters_eq. destruct (alt_ok_last _ starters s starters_safe H) as (r & a & E).
  unfold peek, not_. now rewrite E.
Qed.
Lemma start_ok : forall s, alt starters s = Err -> p_is_paragraph_line_start cfg rec s = Ok s tt.
Proof. intros s H. rewrite starters_eq. unfold peek, not_. now rewrite H. Qed.
Lemma start_blank : forall k r, stops r -> p_is_paragraph_line_start cfg rec (rep k c_sp ++ r) = Err.
Proof.
  intros k r H. apply start_err. do 11 apply Exists_cons_tl. apply Exists_cons_hd. exists (tl r), tt.
  unfold p_unit, value, pmap, bind. rewrite (lt_stop _ _ _ r (rep k c_sp)); [reflexivity| |exact H].
  apply space0_line. destruct r as [|c r]; [exact I|]. cbn in H. subst c. reflexivity.
Qed.

(** ** Paragraphs *)
(** a text that begins no block, wherever it is continued *)
Definition quiet (s : str) : Prop :=
  (exists c t, s = c :: t /\ is_whitespace c = false) /\ forall k r, k <= 3 -> stops r -> alt starters (rep k c_sp ++ ind k s ++ r) = Err.
(** ... nor does any of its lines *)
Definition settled (o : str) : Prop := ~ In c_cr o /\ quiet o /\ forall a b, o = a ++ c_nl :: b -> quiet b.
Lemma settled_tail : forall a b, settled (a ++ c_nl :: b) -> settled b.
Proof.
  intros a b (H1 & H2 & H3). split; [|split].
  - intro I. apply H1. apply in_or_app. right. now right.
  - now apply (H3 a).
  - intros x y ->. apply (H3 (a ++ c_nl :: x)). now rewrite <- app_assoc.
Qed.
Definition para_line : parser str :=
  preceded (p_is_paragraph_line_start cfg rec) (preceded up_to_3_spaces not_eof_or_eol1).
Lemma para_line_ok : forall k l b r, k <= 3 -> nl_free l -> ~ In c_cr l -> stops (b ++ r) -> quiet (l ++ b) -> stops r -> para_line (rep k c_sp ++ l ++ ind k b ++ r) = Ok (ind k b ++ r) l.
Proof.
  intros k l b r Hk Hf Hcr Hs ((c & t & E & Hc) & Hq) Hr. apply white_inked in Hc. unfold para_line, preceded at 1, bind at 1.
  specialize (Hq k r Hk Hr). rewrite ind_app, (ind_free k l Hf), <- app_assoc in Hq.
  rewrite start_ok by exact Hq. unfold preceded, bind.
  assert (Sb : stops (ind k b ++ r)).
  { destruct b as [|x b]; [exact Hr|]. cbn in Hs. subst x. reflexivity. }
  assert (L : exists t', l = c :: t').
  { destruct l as [|x l]; [exfalso|injection E as -> _; eauto]. cbn in E. subst b. cbn in Hs. subst c. now destruct Hc as [[] _]. }
  destruct L as (t' & ->). change ((c :: t') ++ ?x) with (c :: (t' ++ x)). rewrite up3_here by assumption.
  apply (not_eol1_line (c :: t')); [discriminate| |exact Sb]. apply Forall_forall. intros x I. split; intros ->; contradiction.
Qed.
(** where a paragraph ends *)
Definition para_end (r : str) : Prop := r = [] \/ exists t, r = c_nl :: t /\ para_line t = Err.
Lemma para_end_stops : forall r, para_end r -> stops r.
Proof. intros r [->|(t & -> & _)]; [exact I|reflexivity]. Qed.
Lemma blank_para_end : forall r, blank_tail r -> para_end r.
Proof.
  intros r [->|(k & t & ->)]; [now left|]. right. eexists. split; [reflexivity|]. unfold para_line, preceded. apply bind_e.
  now apply start_blank.
Qed.
Lemma para_sep : forall k r, k <= 3 -> para_end r -> forall m b n, len b <= m -> settled b -> len (c_nl :: rep k c_sp ++ ind k b ++ r) < n ->
  sep_go n line_ending para_line (c_nl :: rep k c_sp ++ ind k b ++ r) = Ok r (split_lines b).
Proof.
  intros k r Hk Hr. pose proof (para_end_stops r Hr) as St. induction m as [|m IH]; intros b n Hm (Hcr & Hq & Hn) L; (destruct n as [|n]; [cbn in L; lia|]).
  { destruct b; [|cbn in Hm; lia]. destruct Hq as ((c & t & E & _) & _). discriminate. }
  cbn [sep_go]. match goal with |- context [line_ending (c_nl :: ?x)] => change (line_ending (c_nl :: x)) with (Ok x [c_nl]) end. cbv beta iota.
  destruct (first_line b) as [[F ->]|(l & b2 & F & -> & ->)].
  - rewrite (ind_free k b F) in *. pose proof (para_line_ok k b [] r Hk F Hcr) as P. cbn [ind flat_map app] in P. rewrite app_nil_r in P. rewrite P by assumption.
    match goal with |- context [(?a =? ?b)] => destruct (Nat.eqb_spec a b) as [Y|_]; [revert Y; cbn [List.length]; rewrite ?app_length; intro; lia|] end.
    destruct n as [|n]; [cbn in L; lia|]. cbn [sep_go]. destruct Hr as [->|(t & -> & E)]; [reflexivity|].
    change (line_ending (c_nl :: t)) with (Ok t [c_nl]). cbv beta iota. now rewrite E.
  - assert (Hcl : ~ In c_cr l) by (intro I; apply Hcr; apply in_or_app; now left).
    rewrite ind_app, (ind_free k l F), <- app_assoc in *. rewrite para_line_ok by (assumption || reflexivity). rewrite ind_nl in *.
    match goal with |- context [(?a =? ?b)] => destruct (Nat.eqb_spec a b) as [Y|_]; [revert Y; cbn [List.length]; rewrite ?app_length; intro; lia|] end.
    cbn [app] in *. rewrite <- app_assoc in *. rewrite IH; [reflexivity| | |].
    + rewrite app_length in Hm. cbn in Hm. lia.
    + apply (settled_tail l). split; [exact Hcr|]. now split.
    + revert L. cbn [List.length]. rewrite !app_length. cbn [List.length]. rewrite !app_length. lia.
Qed.
Lemma join_flat : forall sep x l, join sep (x :: l) = x ++ flat_map (fun y => sep ++ y) l.
Proof.
  intros sep x l. revert x. induction l as [|y l IH]; intros x; [now rewrite app_nil_r|].
  rewrite join_cons by discriminate. rewrite IH. cbn [flat_map]. now rewrite <- app_assoc.
Qed.
Lemma flat_map_map : forall A B C (f : A -> B) (g : B -> list C) l, flat_map g (map f l) = flat_map (fun x => g (f x)) l.
Proof. intros. induction l; cbn; [reflexivity|now rewrite IHl]. Qed.
Lemma paragraph_reads : forall k o r c, k <= 3 -> settled o -> para_end r -> inline_many1 cfg o = Ok [] c ->
  p_paragraph cfg rec true (pre k o ++ r) = Ok (tl r) c.
Proof.
  intros k o r c Hk Ho Hr Hc. unfold p_paragraph, bind at 1, ret at 1. fold para_line. pose proof (para_end_stops r Hr) as St.
  assert (E : separated_list0 line_ending para_line (pre k o ++ r) = Ok r (split_lines o)).
  { rewrite pre_ind, <- app_assoc. pose proof Ho as (Hcr & Hq & Hn). unfold separated_list0. destruct (first_line o) as [[F ->]|(l & b & F & -> & ->)].
    - pose proof (para_line_ok k o [] r Hk F Hcr) as P. cbn [ind flat_map app] in P. rewrite app_nil_r in P. rewrite (ind_free k o F). rewrite P by assumption.
      unfold pmap, bind, ret. cbn [sep_go]. destruct Hr as [->|(t & -> & E)]; [reflexivity|].
      change (line_ending (c_nl :: t)) with (Ok t [c_nl]). cbv beta iota. now rewrite E.
    - assert (Hcl : ~ In c_cr l) by (intro I; apply Hcr; apply in_or_app; now left).
      rewrite ind_app, (ind_free k l F), <- app_assoc. rewrite para_line_ok by (assumption || reflexivity). rewrite ind_nl.
      unfold pmap, bind. cbn [app]. rewrite <- app_assoc. erewrite para_sep; [reflexivity|exact Hk|exact Hr|apply Nat.le_refl|now apply (settled_tail l)|lia]. }
  unfold bind. rewrite (lt_stop _ _ _ r (split_lines o)); [|exact E|exact St].
  cbn [app]. rewrite split_join. unfold nested. now rewrite Hc.
Qed.

(** ** Sequences of blocks *)
Definition alts : parser (list block) :=
      alt [ conditional_block (b_code_block cfg) (pmap BCodeBlock p_code_block);
             conditional_block (b_heading_v1 cfg) (pmap BHeading (p_heading_v1 cfg));
             conditional_block (b_heading_v2 cfg) (p_heading_v2_or_paragraph cfg rec);
             conditional_block (b_thematic_break cfg) (value BThematicBreak p_thematic_break);
             conditional_block_vec (b_github_alert cfg) (p_github_alert cfg rec);
             conditional_block (b_blockquote cfg) (pmap BBlockQuote (p_blockquote rec));
             conditional_block (b_list cfg) (pmap BList (p_list rec));
             conditional_block (b_html_block cfg) (pmap BHtmlBlock p_html_block);
             conditional_block (b_footnote_definition cfg) (pmap BFootnoteDefinition (p_footnote_definition rec));
             conditional_block (b_link_definition cfg) (pmap BDefinition (p_link_definition cfg));
             conditional_block (b_table cfg) (pmap BTable (p_table cfg));
             p_custom_block cfg;
             conditional_block (b_paragraph cfg) (pmap BParagraph (p_paragraph cfg rec false)) ].
Lemma block_gap : forall g s, gap g -> starts_line s -> rec (g ++ s) = alts s.
Proof.
  intros g s Hg Hs. rewrite block_unfold by exact cfg_ok. unfold p_block, preceded, bind.
  destruct (many_empty_gap g s Hg Hs) as (l & ->). reflexivity.
Qed.
(** [reads s b]: the text [s] is read as the block [b] *)
Definition reads (s : str) (b : block) : Prop :=
  starts_line s /\ forall r, blank_tail r -> alts (s ++ r) = Ok (tl r) [b].
Lemma starts_app : forall s r, starts_line s -> starts_line (s ++ r).
Proof. intros s r (k & c & t & -> & H). exists k, c, (t ++ r). split; [now rewrite <- app_assoc|exact H]. Qed.
Lemma starts_ne : forall s, starts_line s -> s <> [].
Proof. intros s (k & c & t & -> & _) E. destruct k; discriminate E. Qed.
Definition sepk (k : nat) : str := c_nl :: rep k c_sp ++ [c_nl].
(** what may follow a block behind a line of [j] spaces: behind a list [b],
    something that is not indented by more than [m] spaces, if [j <= w b] *)
Definition follows (w : block -> nat) (j m : nat) (b : block) (u : str) : Prop :=
  match b with BList _ => j <= w b /\ exists i c t, i <= m /\ inked c /\ u = rep i c_sp ++ c :: t | _ => True end.
(** the text [s] is read as the block [b], if a line of [j] spaces and something
    that may follow comes behind it *)
Definition reads_at (w : block -> nat) (j m : nat) (s : str) (b : block) : Prop :=
  starts_line s /\ forall r, (r = [] \/ exists u, starts_line u /\ follows w j m b u /\ r = sepk j ++ u) ->
    exists r', (r' = tl r \/ r' = r) /\ alts (s ++ r) = Ok r' [b].
Lemma reads_at_tl : forall w j m s b,
  starts_line s /\ (forall r, (r = [] \/ exists u, starts_line u /\ follows w j m b u /\ r = sepk j ++ u) -> alts (s ++ r) = Ok (tl r) [b]) -> reads_at w j m s b.
Proof. intros w j m s b [S E]. split; [exact S|]. intros r Hr. exists (tl r). split; [now left|now apply E]. Qed.
Lemma sepk_tail : forall j u, blank_tail (sepk j ++ u).
Proof. intros j u. right. exists j, u. unfold sepk. cbn [app]. now rewrite <- app_assoc. Qed.
Lemma reads_anywhere : forall w j m s b, reads s b -> reads_at w j m s b.
Proof. intros w j m s b [S E]. apply reads_at_tl. split; [exact S|]. intros r [->|(u & _ & _ & ->)]; apply E; [now left|apply sepk_tail]. Qed.
Inductive linked (w : block -> nat) (j m : nat) : list block -> list str -> Prop :=
| linked_nil : linked w j m [] []
| linked_one : forall b s, linked w j m [b] [s]
| linked_cons : forall b b2 bs s s2 ss, follows w j m b s2 -> linked w j m (b2 :: bs) (s2 :: ss) -> linked w j m (b :: b2 :: bs) (s :: s2 :: ss).
Lemma rec_nil : rec [] = Err.
Proof. reflexivity. Qed.
(** blank lines in front of a block *)
Definition gaps (g : str) : Prop := gap g \/ exists k, g = sepk k.
Lemma block_gaps : forall g s, gaps g -> starts_line s -> rec (g ++ s) = alts s.
Proof.
  intros g s [Hg|(k & ->)] Hs; [now apply block_gap|]. rewrite block_unfold by exact cfg_ok. unfold p_block, preceded, bind.
  assert (X : exists l, many_empty_lines0 (sepk k ++ s) = Ok s l); [|destruct X as (l & ->); reflexivity].
  assert (P : forall i t, preceded space0 eof_or_eol (rep i c_sp ++ c_nl :: t) = Ok t [c_nl]).
  { intros i t. unfold preceded, bind. rewrite space0_line by reflexivity. reflexivity. }
  assert (Q : forall i t n, many0_go (S n) (preceded space0 eof_or_eol) (rep i c_sp ++ c_nl :: t) =
    match many0_go n (preceded space0 eof_or_eol) t with Ok r' l => Ok r' ([c_nl] :: l) | Err => Err | Oof => Oof end).
  { intros i t n. cbn [many0_go]. rewrite P. match goal with |- context [(?a =? ?b)] => destruct (Nat.eqb_spec a b) as [Y|_] end; [rewrite app_length in Y; cbn [List.length] in Y; lia|reflexivity]. }
  exists [[c_nl]; [c_nl]]. unfold many_empty_lines0, many0, sepk. cbn [app]. rewrite <- app_assoc. cbn [app List.length]. rewrite app_length. cbn [List.length].
  rewrite (Q 0 (rep k c_sp ++ c_nl :: s)), Q. rewrite Nat.add_succ_r. cbn [many0_go]. now rewrite empty_none.
Qed.
Lemma seq_reads : forall w j m ss bs, Forall2 (reads_at w j m) ss bs -> linked w j m bs ss -> forall g n, gaps g -> ss <> [] -> len (g ++ join (sepk j) ss) < n ->
  many0_go n rec (g ++ join (sepk j) ss) = Ok [] (map (fun b => [b]) bs).
Proof.
  intros w k m ss bs H. induction H as [|s b ss bs Hs H IH]; intros K g n Hg Hne Hn; [congruence|].
  destruct n as [|n]; [lia|]. cbn [many0_go map].
  destruct ss as [|s2 ss].
  - inversion H; subst. cbn [join] in *. rewrite block_gaps by (assumption || apply Hs). replace s with (s ++ []) at 1 by apply app_nil_r.
    destruct Hs as [S E]. destruct (E [] (or_introl eq_refl)) as (r' & R & E'). rewrite E'. replace r' with (@nil char) by (destruct R as [-> | ->]; reflexivity).
    pose proof (starts_ne _ S) as N. destruct (Nat.eqb_spec (len (@nil char)) (len (g ++ s))) as [Y|_].
    { rewrite app_length in Y. destruct s; [congruence|]. cbn in Y. lia. }
    destruct n as [|n]; [rewrite app_length in Hn; destruct s; [congruence|cbn in Hn; lia]|].
    cbn [many0_go]. rewrite rec_nil. reflexivity.
  - rewrite join_cons by discriminate. rewrite join_cons in Hn by discriminate. destruct Hs as [S E]. pose proof (starts_ne _ S) as NS.
    inversion H as [|? b2 ? bs2 [S2 _] H2 E1 E2]; subst. inversion K as [| |? ? ? ? ? ? K1 K2]; subst.
    assert (SL : starts_line (join (sepk k) (s2 :: ss)) /\ follows w k m b (join (sepk k) (s2 :: ss))).
    { rewrite join_flat. split; [now apply starts_app|]. destruct b; try exact I. destruct K1 as (Hw & i & c & t & Hi & Hc & ->). split; [exact Hw|]. exists i, c. eexists. split; [exact Hi|]. split; [exact Hc|]. rewrite <- app_assoc. reflexivity. }
    rewrite block_gaps by (assumption || now apply starts_app).
    destruct (E (sepk k ++ join (sepk k) (s2 :: ss))) as (r' & R & E'); [right; exists (join (sepk k) (s2 :: ss)); split; [apply SL|]; split; [apply SL|reflexivity]|]. rewrite E'.
    assert (G : exists g', gaps g' /\ r' = g' ++ join (sepk k) (s2 :: ss) /\ len g' <= len (sepk k)).
    { destruct R as [-> | ->].
      - exists (rep k c_sp ++ [c_nl]). split; [left; right; now exists k|]. split; [unfold sepk at 1; cbn [tl app]; now rewrite <- app_assoc|]. unfold sepk. cbn [List.length]. lia.
      - exists (sepk k). split; [right; now exists k|]. split; [reflexivity|lia]. }
    destruct G as (g' & Gg & -> & Gl).
    assert (LS : 1 <= len s) by (destruct s; [congruence|cbn; lia]).
    match goal with |- context [(?a =? ?b)] => destruct (Nat.eqb_spec a b) as [Y|_] end.
    { exfalso. rewrite !app_length in Y. unfold str, char in *. lia. }
    rewrite (IH K2 g' n Gg); [reflexivity|discriminate|]. rewrite !app_length in *. unfold str, char in *. lia.
Qed.
Lemma many0_reads : forall w j m ss bs, Forall2 (reads_at w j m) ss bs -> linked w j m bs ss -> many0 rec (join (sepk j) ss) = Ok [] (map (fun b => [b]) bs).
Proof.
  intros w k m ss bs H K. destruct ss as [|s ss].
  - inversion H; subst. reflexivity.
  - unfold many0. apply (seq_reads w k m _ _ H K []); [left; now left|discriminate|]. cbn [app]. lia.
Qed.
Lemma many1_reads : forall w j m ss bs, Forall2 (reads_at w j m) ss bs -> linked w j m bs ss -> ss <> [] -> many1 rec (join (sepk j) ss) = Ok [] (map (fun b => [b]) bs).
Proof.
  intros w k m0 ss bs H K Hne. pose proof (many0_reads w k m0 ss bs H K) as E. unfold many0 in E. cbn [many0_go] in E. unfold many1, bind.
  destruct (rec (join (sepk k) ss)) as [r a| |] eqn:R; try discriminate E.
  - match type of E with context [(?a =? ?b)] => destruct (Nat.eqb_spec a b) as [Y|Y] end; [discriminate|].
    unfold pmap, bind, ret, many0.
    assert (L : len r <= len (join (sepk k) ss)) by (apply (eats_len _ true) in R; [exact R|now apply eats_block_; apply cfg_ok]).
    destruct (many0_go (len (join (sepk k) ss)) rec r) as [r2 l2| |] eqn:G; try discriminate E. injection E as -> <-.
    assert (F : forall m m' s r l, len s < m -> len s < m' -> many0_go m rec s = Ok r l -> many0_go m' rec s = Ok r l).
    { clear. induction m as [|m IH]; intros m' s r l H1 H2 E; [lia|]. destruct m' as [|m']; [lia|]. cbn [many0_go] in *.
      destruct (rec s) as [r1 a| |] eqn:R; [|exact E|discriminate].
      apply eats_lt in R; [|now apply eats_block_; apply cfg_ok].
      destruct (Nat.eqb_spec (len r1) (len s)) as [Y|Y]; [exact E|].
      destruct (many0_go m rec r1) as [r2 l2| |] eqn:G; try discriminate. rewrite (IH m' r1 r2 l2); [exact E|lia|lia|exact G]. }
    assert (L2 : len r < len (join (sepk k) ss)) by (unfold str, char in *; lia).
    rewrite (F _ (S (len r)) _ _ _ L2 ltac:(lia) G). reflexivity.
  - exfalso. injection E as E _. destruct ss as [|s ss]; [congruence|]. inversion H as [|? b ? ? [S _]]; subst.
    apply starts_ne in S. destruct ss; cbn in E; [congruence|]. destruct s; [congruence|discriminate].
Qed.
Theorem document_reads_at : forall w m ss bs, Forall2 (reads_at w 0 m) ss bs -> linked w 0 m bs ss ->
  parse_markdown cfg (join [c_nl; c_nl] ss) = Ok [] (Document bs).
Proof.
  intros w m ss bs H K. rewrite parse_markdown_unfold by exact cfg_ok. unfold p_document, pmap, bind at 1. unfold terminated, bind at 1.
  change [c_nl; c_nl] with (sepk 0). rewrite (many0_reads w 0 m ss bs H K). unfold value, pmap, bind, ret. cbn.
  do 2 f_equal. clear H K. induction bs as [|b bs IH]; [reflexivity|]. cbn [map List.concat app]. now f_equal.
Qed.
(** a document of one block *)
Theorem document_reads : forall s b, reads s b -> parse_markdown cfg s = Ok [] (Document [b]).
Proof.
  intros s b H. apply (document_reads_at (fun _ => 0) 0 [s] [b]); [|apply linked_one]. constructor; [|constructor]. now apply reads_anywhere.
Qed.
End Reading.
