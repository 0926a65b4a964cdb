(** Which blocks are read from printed texts; [pre k o] is the text [o] behind
    [k] spaces (inside a quote, [k = 1]). *)
From Coq Require Import String Lia.
From Verif Require Export RoundWords.
Import ListNotations.
Open Scope list_scope.
Local Notation len := (@List.length _).

Lemma or_e : forall A (p q : parser A) s, p s = Err -> or_else p q s = q s.
Proof. intros A p q s E. unfold or_else. now rewrite E. Qed.
Lemma or_ok : forall A (p q : parser A) s r a, p s = Ok r a -> or_else p q s = Ok r a.
Proof. intros A p q s r a E. unfold or_else. now rewrite E. Qed.
Lemma pmap_ok : forall A B (f : A -> B) (p : parser A) s r a, p s = Ok r a -> pmap f p s = Ok r (f a).
Proof. intros A B f p s r a E. unfold pmap, bind, ret. now rewrite E. Qed.
Definition one (p : parser block) : parser (list block) := pmap (fun v => [v]) p.
Lemma one_ok : forall p s r a, p s = Ok r a -> one p s = Ok r [a].
Proof. intros p s r a E. exact (pmap_ok _ _ (fun v => [v]) p s r a E). Qed.
Lemma one_e : forall p s, p s = Err -> one p s = Err.
Proof. intros. unfold one. now apply pmap_e. Qed.
Lemma one_map_ok : forall A (f : A -> block) p s r a, p s = Ok r a -> one (pmap f p) s = Ok r [f a].
Proof. intros A f p s r a E. apply one_ok. now apply pmap_ok. Qed.
Lemma one_map_e : forall A (f : A -> block) p s, p s = Err -> one (pmap f p) s = Err.
Proof. intros. apply one_e. now apply pmap_e. Qed.

(** where something stops: after a block, or at a blank line *)
(** an empty line, maybe with spaces *)
Definition spaced (s : str) : Prop := stops s \/ exists t, s = c_sp :: t.
Lemma blank_up3 : forall r, blank_tail r -> exists s x, up_to_3_spaces (tl r) = Ok s x /\ spaced s.
Proof.
  intros r [->|(k & t & ->)]; [exists [], []; split; [reflexivity|left; exact I]|]. cbn [tl].
  destruct (Nat.le_gt_cases k 3) as [L|L].
  - exists (c_nl :: t), (rep k c_sp). split; [apply up3; [exact L|now apply no_space_cons]|left; reflexivity].
  - exists (rep (k - 3) c_sp ++ c_nl :: t), (rep 3 c_sp). split.
    + replace (rep k c_sp) with (rep 3 c_sp ++ rep (k - 3) c_sp) by (unfold rep; rewrite <- repeat_app; f_equal; lia). rewrite <- app_assoc. unfold up_to_3_spaces. apply many_spaces; [lia|now right].
    + right. destruct (k - 3) eqn:E; [lia|]. cbn. eauto.
Qed.
Lemma blank_chr : forall s c, spaced s -> c <> c_nl -> c <> c_sp -> char_ c s = Err.
Proof. intros s c [H|(t & ->)] H1 H2; [|apply char_ne; congruence]. destruct s as [|d s]; [reflexivity|]. cbn in H. subst d. apply char_ne; congruence. Qed.

Section Read.
Variables (entities : str -> option str) (punct : char -> bool) (upper : char -> str).
Let cfg := default_config entities punct upper.
Local Notation rec := (block_ cfg).
Local Notation reads := (reads entities punct upper).
Local Notation alts := (alts entities punct upper).
Local Notation settled := (settled entities punct upper).
Local Notation starters := (starters entities punct upper).
Definition tail_alts : parser (list block) :=
  or_else (p_github_alert cfg rec)
  (or_else (one (pmap BBlockQuote (p_blockquote rec)))
  (or_else (one (pmap BList (p_list rec)))
  (or_else (one (pmap BHtmlBlock p_html_block))
  (or_else (one (pmap BFootnoteDefinition (p_footnote_definition rec)))
  (or_else (one (pmap BDefinition (p_link_definition cfg)))
  (or_else (one (pmap BTable (p_table cfg)))
  (or_else (p_custom_block cfg)
  (one (pmap BParagraph (p_paragraph cfg rec false)))))))))).
Lemma alts_eq : forall s, alts s =
  or_else (one (pmap BCodeBlock p_code_block))
  (or_else (one (pmap BHeading (p_heading_v1 cfg)))
  (or_else (one (p_heading_v2_or_paragraph cfg rec))
  (or_else (one (value BThematicBreak p_thematic_break)) tail_alts))) s.
Proof. reflexivity. Qed.

(** some starter begins here: no paragraph *)
Lemma no_paragraph : forall k c s, inked c -> Exists (fun p => exists r x, p (rep k c_sp ++ c :: s) = Ok r x) starters ->
  p_heading_v2_or_paragraph cfg rec (rep k c_sp ++ c :: s) = Err.
Proof.
  intros k c s Hc H. unfold p_heading_v2_or_paragraph, p_paragraph. apply bind_e. unfold bind at 1, ret at 1. apply bind_e.
  set (src := rep k c_sp ++ c :: s) in *.
  assert (E : separated_list0 line_ending (preceded (p_is_paragraph_line_start cfg rec) (preceded up_to_3_spaces not_eof_or_eol1)) src = Ok src []).
  { unfold separated_list0. unfold preceded at 1, bind at 1. unfold cfg. now rewrite start_err. }
  unfold src in E. destruct k as [|k]; cbn [rep repeat app] in E; eapply lt_char; try exact E; [apply Hc|split; discriminate].
Qed.

(** ** Paragraphs and setext headings *)
Lemma pre_head : forall k c t, inked c -> exists t', pre k (c :: t) = rep k c_sp ++ c :: t'.
Proof.
  intros k c t [[H _] _]. unfold pre. cbn [split_lines]. destruct (N.eqb_spec c c_nl) as [|_]; [congruence|].
  destruct (split_lines t) as [|l [|l2 ls]]; cbn; [now exists []| |].
  - now exists l.
  - rewrite <- app_assoc. cbn. eexists. reflexivity.
Qed.
Lemma calm_pre : forall k o, k <= 3 -> settled o -> forall r, stops r ->
  (exists c t', pre k o ++ r = rep k c_sp ++ c :: t' /\ inked c) /\ alt starters (pre k o ++ r) = Err.
Proof.
  intros k o Hk (_ & ((c & t & -> & Hc) & Hq) & _) r Hr. apply white_inked in Hc. rewrite pre_ind, <- app_assoc. split.
  - rewrite ind_cons by (destruct Hc as [[X _] _]; exact X). exists c. eexists. split; [reflexivity|exact Hc].
  - now apply Hq.
Qed.
Lemma calm_first : forall k o r, k <= 3 -> settled o -> stops r ->
  p_code_block (pre k o ++ r) = Err /\ p_heading_v1 cfg (pre k o ++ r) = Err.
Proof.
  intros k o r Hk H Hr. destruct (calm_pre k o Hk H r Hr) as ((c & t' & E & Hc) & S). rewrite E in *.
  assert (I : Forall (fun p => p (rep k c_sp ++ c :: t') = Err) starters) by (apply alt_err_inv; exact S).
  unfold RoundBlocks.starters in I. rewrite Forall_forall in I.
  assert (V : forall A (p : parser A) s, p_unit p s = Err -> p s = Err).
  { intros A p s X. unfold p_unit, value, pmap, bind, ret in X. destruct (p s); [discriminate|reflexivity|discriminate]. }
  split.
  - unfold p_code_block. apply alt_err. apply Forall_cons1; [now apply code_indented_e|]. apply Forall_cons1; [|constructor].
    apply V. apply (I (conditional_unit (b_code_block cfg) (p_unit p_code_block_fenced))). do 5 right. now left.
  - apply V. apply (I (conditional_unit (b_heading_v1 cfg) (p_unit (p_heading_v1 cfg)))). now left.
Qed.
Lemma pre_starts : forall k o, settled o -> starts_line (pre k o).
Proof.
  intros k o (_ & ((c & t & -> & Hc) & _) & _). apply white_inked in Hc. destruct (pre_head k c t Hc) as (t' & ->). now exists k, c, t'.
Qed.
Lemma reads_paragraph : forall k o c, k <= 3 -> settled o -> inline_many1 cfg o = Ok [] c ->
  reads (pre k o) (BParagraph c).
Proof.
  intros k o c Hk Ho Hc. split; [now apply pre_starts|]. intros r Hr.
  destruct (calm_first k o r Hk Ho (blank_tail_stops r Hr)) as [H1 H2].
  rewrite alts_eq. rewrite or_e by (now apply one_map_e). rewrite or_e by (now apply one_map_e). apply or_ok. apply one_ok.
  unfold p_heading_v2_or_paragraph, bind at 1. unfold cfg. rewrite (paragraph_reads entities punct upper k o r c Hk Ho); [|now apply blank_para_end|exact Hc].
  unfold bind, opt. replace (p_heading_v2_level (tl r)) with (@Err setext_heading); [reflexivity|]. symmetry.
  unfold p_heading_v2_level. apply lt_err. unfold preceded. destruct (blank_up3 r Hr) as (s & x & U & Hs). unfold bind at 1. rewrite U.
  unfold terminated. apply bind_e. apply alt_err.
  apply Forall_cons1; [|apply Forall_cons1; [|constructor]]; apply pmap_e; unfold many1; apply bind_e; (apply blank_chr; [exact Hs|discriminate|discriminate]).
Qed.
Lemma level_reads : forall l k r, k <= 3 -> stops r -> p_heading_v2_level (rep k c_sp ++ setext_line l ++ r) = Ok (tl r) l.
Proof.
  intros l k r Hk Hr. unfold p_heading_v2_level. eapply lt_stop; [|exact Hr]. unfold preceded, bind.
  assert (X : exists c t, setext_line l ++ r = c :: t /\ c <> c_sp).
  { destruct l; cbn; eexists _, _; (split; [reflexivity|discriminate]). }
  destruct X as (c & t & E & N). rewrite E. rewrite up3; [|exact Hk|now apply no_space_cons]. rewrite <- E.
  assert (Y : forall c, c <> c_nl -> exists x, many1 (char_ c) (repeat c 10 ++ r) = Ok r x).
  { intros d Hd. unfold many1, bind. change (repeat d 10 ++ r) with (d :: (repeat d 9 ++ r)). rewrite char_same.
    eexists. unfold pmap, bind. rewrite (many0_steps _ _ (fun x => x)).
    - reflexivity.
    - intros y s I. apply repeat_spec in I. subst. apply char_same.
    - destruct r as [|y r]; [reflexivity|]. cbn in Hr. subst y. apply char_ne. congruence. }
  assert (Z : space0 r = Ok r []).
  { apply (space0_line 0 r). destruct r as [|y r']; [exact I|]. cbn in Hr. subst y. reflexivity. }
  unfold terminated, bind.
  destruct l.
  - destruct (Y (ch "=")) as (x & M); [discriminate|]. change (setext_line Level1) with (repeat (ch "=") 10).
    unfold alt. erewrite or_ok; [|eapply pmap_ok; exact M]. unfold value, pmap, bind. rewrite Z. reflexivity.
  - destruct (Y (ch "-")) as (x & M); [discriminate|]. change (setext_line Level2) with (repeat (ch "-") 10).
    unfold alt. rewrite or_e.
    + change (value Level2 (many1 (chr "-"))) with (pmap (fun _ : list char => Level2) (many1 (chr "-"))).
      rewrite (pmap_ok _ _ (fun _ : list char => Level2) (many1 (chr "-")) _ _ _ M). unfold value, pmap, bind. rewrite Z. reflexivity.
    + apply pmap_e. unfold many1. apply bind_e. apply char_ne. discriminate.
Qed.
Lemma setext_char : forall l, exists c t, setext_line l = c :: t /\ inked c.
Proof. intros []; cbn; eexists _, _; (split; [reflexivity|]); repeat split; discriminate. Qed.
Lemma setext_nl : forall l, nl_free (setext_line l).
Proof. intros [] H; cbn in H; intuition discriminate. Qed.
Lemma reads_setext : forall k o c l, k <= 3 -> settled o -> inline_many1 cfg o = Ok [] c ->
  reads (pre k (o ++ c_nl :: setext_line l)) (BHeading (Heading (Setext l) c)).
Proof.
  intros k o c l Hk Ho Hc. rewrite pre_app, (pre_one _ (setext_line l)) by apply setext_nl. split; [now apply starts_app, pre_starts|]. intros r Hr.
  rewrite <- app_assoc. cbn [app]. rewrite <- app_assoc.
  set (tail := c_nl :: rep k c_sp ++ setext_line l ++ r).
  destruct (calm_first k o tail Hk Ho) as [H1 H2]; [reflexivity|].
  rewrite alts_eq. rewrite or_e by (now apply one_map_e). rewrite or_e by (now apply one_map_e). apply or_ok. apply one_ok.
  assert (L : p_heading_v2_level (rep k c_sp ++ setext_line l ++ r) = Ok (tl r) l) by (apply level_reads; [exact Hk|now apply blank_tail_stops]).
  unfold p_heading_v2_or_paragraph, bind at 1. unfold cfg.
  rewrite (paragraph_reads entities punct upper k o tail c Hk Ho); [| |exact Hc].
  - unfold bind, opt. unfold tail. cbn [tl]. rewrite L. reflexivity.
  - right. eexists. split; [reflexivity|]. unfold para_line, preceded. apply bind_e. apply start_err.
    apply Exists_cons_tl, Exists_cons_hd. exists (tl r), tt. cbn [conditional_unit default_config b_heading_v2]. unfold p_unit, value, pmap, bind, ret. now rewrite L.
Qed.

(** ** Thematic breaks *)
Lemma thematic_reads : forall k r, k <= 3 -> stops r -> p_thematic_break (rep k c_sp ++ lit "---" ++ r) = Ok (tl r) tt.
Proof.
  intros k r Hk Hr. unfold p_thematic_break. unfold p_unit, value. change tt with ((fun _ : list char => tt) (lit "---")) at 2. apply pmap_ok.
  eapply lt_stop; [|exact Hr]. unfold preceded, bind. change (lit "---" ++ r) with (ch "-" :: ch "-" :: ch "-" :: r).
  rewrite up3; [|exact Hk|now apply no_space_cons]. unfold terminated, bind.
  assert (Z : space0 r = Ok r []).
  { apply (space0_line 0 r). destruct r as [|y r']; [exact I|]. cbn in Hr. subst y. reflexivity. }
  assert (M : many_ge 3 (chr "-") (ch "-" :: ch "-" :: ch "-" :: r) = Ok r (lit "---")).
  { unfold many_ge. rewrite Nat.add_comm. cbn [plus many_m_n pred]. unfold chr. repeat (rewrite char_same;
      match goal with |- context [(?a =? ?b)] => destruct (Nat.eqb_spec a b) as [Y|_]; [cbn [List.length] in Y; lia|] end).
    destruct r as [|y r']; [reflexivity|]. cbn in Hr. subst y. cbn [many_m_n]. rewrite char_ne by discriminate. reflexivity. }
  unfold alt. erewrite or_ok by exact M. unfold value, pmap, bind. now rewrite Z.
Qed.
Lemma reads_thematic : forall k, k <= 3 -> reads (pre k (lit "---")) BThematicBreak.
Proof.
  intros k Hk. rewrite pre_one by (intro H; cbn in H; intuition discriminate).
  assert (Hi : inked (ch "-")) by (repeat split; discriminate).
  split; [exists k, (ch "-"), (lit "--"); split; [reflexivity|exact Hi]|]. intros r Hr.
  rewrite <- app_assoc. change (lit "---" ++ r) with (ch "-" :: lit "--" ++ r). rewrite alts_eq.
  assert (T : p_thematic_break (rep k c_sp ++ ch "-" :: lit "--" ++ r) = Ok (tl r) tt) by (apply thematic_reads; [exact Hk|now apply blank_tail_stops]).
  rewrite or_e by (apply one_map_e; apply code_block_e; (assumption || discriminate)).
  rewrite or_e by (apply one_map_e; apply heading_e; try assumption; left; discriminate).
  rewrite or_e.
  - apply or_ok. unfold value. now apply (one_map_ok _ (fun _ => BThematicBreak) _ _ _ tt).
  - apply one_e. apply no_paragraph; [exact Hi|]. do 2 apply Exists_cons_tl. apply Exists_cons_hd. exists (tl r), tt. exact T.
Qed.

(** ** ATX headings *)
Lemma reads_atx : forall n o c, 1 <= n <= 6 -> (exists x t, o = x :: t /\ inked x) -> Forall line_char o -> inline_many0 cfg o = Ok [] c ->
  reads (rep n (ch "#") ++ c_sp :: o) (BHeading (Heading (Atx (N.of_nat n)) c)).
Proof.
  intros n o c Hn (x & t & -> & Hx) Ho Hc. split.
  { exists 0. destruct n as [|n]; [lia|]. exists (ch "#"), (rep n (ch "#") ++ c_sp :: x :: t). split; [reflexivity|]. repeat split; discriminate. }
  intros r Hr. rewrite alts_eq. rewrite <- app_assoc. cbn [app].
  rewrite or_e.
  2:{ apply one_map_e. destruct n as [|n]; [lia|]. change (rep (S n) (ch "#") ++ ?y) with (rep 0 c_sp ++ ch "#" :: rep n (ch "#") ++ y).
      apply code_block_e; [lia|repeat split; discriminate|discriminate|discriminate]. }
  apply or_ok. apply one_map_ok. unfold p_heading_v1. unfold bind at 1.
  assert (M : many_m_n 1 6 (chr "#") (rep n (ch "#") ++ c_sp :: x :: t ++ r) = Ok (c_sp :: x :: t ++ r) (rep n (ch "#"))).
  { destruct (Nat.eq_dec n 6) as [->|N6].
    - cbn [many_m_n pred rep repeat app]. unfold chr. repeat (rewrite char_same;
          match goal with |- context [(?a =? ?b)] => destruct (Nat.eqb_spec a b) as [Y|_]; [cbn [List.length] in Y; lia|] end). reflexivity.
    - change (chr "#") with (char_ (ch "#")). unfold rep. rewrite many_run; [|discriminate|lia]. destruct (Nat.leb_spec 1 n); [reflexivity|lia]. }
  rewrite M. unfold bind at 1. cbn [cfg default_config allow_no_space_in_headings].
  assert (S : space1 (c_sp :: x :: t ++ r) = Ok (x :: t ++ r) [c_sp]).
  { unfold space1, take_while1. cbn [span]. change (is_space c_sp) with true. cbn [span]. destruct Hx as [_ ->]. reflexivity. }
  rewrite S. unfold bind at 1. erewrite lt_stop; [|apply (not_eol1_line (x :: t)); [discriminate|exact Ho|now apply blank_tail_stops]|now apply blank_tail_stops].
  unfold bind, nested. rewrite Hc. unfold ret. unfold rep. now rewrite repeat_length.
Qed.
End Read.
