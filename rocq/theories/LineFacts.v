(** How the block parser reads lines: leading spaces, blank lines, and which
    characters can begin which block. *)
From Coq Require Import String Lia.
From Verif Require Export ParserText.
Import ListNotations.
Open Scope list_scope.
Local Notation len := (@List.length _).

(** what follows the content of a line *)
Definition stops (r : str) : Prop := match r with [] => True | c :: _ => c = c_nl end.
Definition line_char (c : char) : Prop := c <> c_nl /\ c <> c_cr.
Definition no_space (s : str) : Prop := forall t, s <> c_sp :: t.

Lemma eol_stop : forall r, stops r -> exists a, eof_or_eol r = Ok (tl r) a.
Proof. intros [|c r] H; [exists []; reflexivity|]. cbn in H. subst c. exists [c_nl]. reflexivity. Qed.
Lemma eol_char : forall c s, line_char c -> eof_or_eol (c :: s) = Err.
Proof.
  intros c s [H1 H2]. unfold eof_or_eol, line_ending, alt, or_else, tag, tag_by, eof. cbn [tag_go].
  destruct (N.eqb_spec c_nl c); [congruence|]. destruct (N.eqb_spec c_cr c); [congruence|]. reflexivity.
Qed.
Lemma line_ending_char : forall c s, line_char c -> line_ending (c :: s) = Err.
Proof.
  intros c s [H1 H2]. unfold line_ending, alt, or_else, tag, tag_by. cbn [tag_go].
  destruct (N.eqb_spec c_nl c); [congruence|]. destruct (N.eqb_spec c_cr c); [congruence|]. reflexivity.
Qed.
Lemma many0_steps : forall A (p : parser A) (f : char -> A) l r, (forall c t, In c l -> p (c :: t) = Ok t (f c)) -> p r = Err ->
  many0 p (l ++ r) = Ok r (map f l).
Proof.
  intros A p f l r Hl Hr. unfold many0. assert (X : len (l ++ r) < S (len (l ++ r))) by lia. revert X. generalize (S (len (l ++ r))). intro n. revert l Hl.
  induction n as [|n IH]; intros l Hl Hn; [lia|]. cbn [many0_go]. destruct l as [|c l].
  - cbn [app]. now rewrite Hr.
  - cbn [app]. rewrite Hl by now left. destruct (Nat.eqb_spec (len (l ++ r)) (len (c :: l ++ r))) as [Y|_]; [cbn [List.length] in Y; lia|].
    rewrite IH; [reflexivity|intros; apply Hl; now right|cbn [app List.length] in Hn; lia].
Qed.
Lemma not_eol1_line : forall l r, l <> [] -> Forall line_char l -> stops r -> not_eof_or_eol1 (l ++ r) = Ok r l.
Proof.
  intros l r Hne Hl Hr. unfold not_eof_or_eol1. set (q := preceded (not_ eof_or_eol) anychar).
  assert (Q : forall c t, In c l -> q (c :: t) = Ok t c).
  { intros c t I. rewrite Forall_forall in Hl. unfold q, preceded, bind, not_. rewrite eol_char by now apply Hl. reflexivity. }
  assert (R : q r = Err). { destruct (eol_stop r Hr) as (a & E). unfold q, preceded, bind, not_. now rewrite E. }
  destruct l as [|c l]; [now elim Hne|].
  rewrite (recognize_ok _ _ (c :: l) r (c :: map (fun c => c) l)); [reflexivity|].
  unfold many1, bind. cbn [app]. rewrite Q by now left. unfold pmap, bind. rewrite (many0_steps _ q (fun c => c)); [reflexivity| |exact R].
  intros d t I. apply Q. now right.
Qed.
Lemma span_line : forall l r, Forall line_char l -> stops r -> span (fun c => negb (N.eqb c 10 || N.eqb c 13)) (l ++ r) = (l, r).
Proof.
  induction l as [|c l IH]; intros r Hl Hr.
  - destruct r as [|c r]; [reflexivity|]. cbn in Hr. subst c. reflexivity.
  - inversion Hl as [|? ? [H1 H2] Hl']; subst. cbn [app span].
    destruct (N.eqb_spec c 10) as [->|]; [now elim H1|]. destruct (N.eqb_spec c 13) as [->|]; [now elim H2|]. cbn. now rewrite IH.
Qed.
Lemma not_eol0_line : forall l r, Forall line_char l -> stops r -> not_eof_or_eol0 (l ++ r) = Ok r l.
Proof.
  intros l r Hl Hr. unfold not_eof_or_eol0, alt, or_else, not_line_ending. rewrite span_line by assumption.
  destruct r as [|c r]; [reflexivity|]. cbn in Hr. subst c. reflexivity.
Qed.
Lemma lt_stop : forall A (p : parser A) s r a, p s = Ok r a -> stops r -> line_terminated p s = Ok (tl r) a.
Proof.
  intros A p s r a E Hr. unfold line_terminated, terminated, bind. rewrite E. destruct (eol_stop r Hr) as (x & X).
  unfold value, pmap, bind, ret. now rewrite X.
Qed.
Lemma lt_err : forall A (p : parser A) s, p s = Err -> line_terminated p s = Err.
Proof. intros A p s E. unfold line_terminated, terminated. now apply bind_e. Qed.
Lemma lt_char : forall A (p : parser A) s c r a, p s = Ok (c :: r) a -> line_char c -> line_terminated p s = Err.
Proof.
  intros A p s c r a E Hc. unfold line_terminated, terminated, bind. rewrite E. unfold value, pmap, bind. now rewrite eol_char.
Qed.

(** ** Leading spaces *)
Lemma sp_char : forall s, chr " " (c_sp :: s) = Ok s c_sp. Proof. reflexivity. Qed.
Lemma sp_none : forall s, no_space s -> chr " " s = Err.
Proof.
  intros [|c s] H; [reflexivity|]. unfold chr, char_, satisfy. destruct (N.eqb_spec (ch " ") c) as [<-|]; [now elim (H s)|reflexivity].
Qed.
Lemma many_spaces : forall k m s, k <= m -> no_space s \/ k = m -> many_m_n 0 m (chr " ") (rep k c_sp ++ s) = Ok s (rep k c_sp).
Proof.
  induction k as [|k IH]; intros m s Hk Hs.
  - destruct m as [|m]; [reflexivity|]. cbn [many_m_n]. change (rep 0 c_sp ++ s) with s. destruct Hs as [Hs|Hs]; [|discriminate]. now rewrite sp_none.
  - destruct m as [|m]; [lia|]. cbn [many_m_n]. change (rep (S k) c_sp ++ s) with (c_sp :: rep k c_sp ++ s). rewrite sp_char.
    destruct (Nat.eqb_spec (len (rep k c_sp ++ s)) (len (c_sp :: rep k c_sp ++ s))) as [X|_]; [cbn [List.length] in X; lia|].
    cbn [pred]. rewrite IH; [reflexivity|lia|]. destruct Hs as [Hs|Hs]; [now left|right; lia].
Qed.
Lemma up3 : forall k s, k <= 3 -> no_space s -> up_to_3_spaces (rep k c_sp ++ s) = Ok s (rep k c_sp).
Proof. intros k s Hk Hs. unfold up_to_3_spaces. apply many_spaces; [exact Hk|now left]. Qed.
Lemma no_space_cons : forall c s, c <> c_sp -> no_space (c :: s).
Proof. intros c s H t E. congruence. Qed.
Lemma rep_spaces : forall k, Forall (fun x => is_space x = true) (rep k c_sp).
Proof. intros k. unfold rep. induction k; constructor; auto. Qed.
Lemma space0_line : forall k s, match s with [] => True | c :: _ => is_space c = false end -> space0 (rep k c_sp ++ s) = Ok s (rep k c_sp).
Proof. intros k s H. unfold space0, take_while. rewrite span_app; [reflexivity|apply rep_spaces|exact H]. Qed.

(** ** Blank lines *)
(** [s] begins with a character after any number of spaces *)
Definition inked (c : char) : Prop := line_char c /\ is_space c = false.
Definition starts_line (s : str) : Prop := exists k c t, s = rep k c_sp ++ c :: t /\ inked c.
Lemma empty_none : forall s, starts_line s -> preceded space0 eof_or_eol s = Err.
Proof.
  intros s (k & c & t & -> & Hc & Hs). unfold preceded, bind. rewrite space0_line by exact Hs. now apply eol_char.
Qed.
Lemma many_empty0 : forall s, starts_line s -> many_empty_lines0 s = Ok s [].
Proof. intros s H. unfold many_empty_lines0, many0. cbn [many0_go]. now rewrite empty_none. Qed.
Definition gap (g : str) : Prop := g = [] \/ exists k, g = rep k c_sp ++ [c_nl].
Lemma many_empty_gap : forall g s, gap g -> starts_line s -> exists l, many_empty_lines0 (g ++ s) = Ok s l.
Proof.
  intros g s [->|(k & ->)] H; [exists []; now apply many_empty0|]. exists [[c_nl]]. unfold many_empty_lines0, many0.
  rewrite <- app_assoc. cbn [many0_go app]. unfold preceded at 1, bind at 1. rewrite space0_line by reflexivity.
  change (eof_or_eol (c_nl :: s)) with (Ok s [c_nl]).
  rewrite app_length. cbn [List.length]. destruct (Nat.eqb_spec (len s) (len (rep k c_sp) + S (len s))); [lia|].
  replace (len (rep k c_sp) + S (len s)) with (S (len (rep k c_sp) + len s)) by lia. cbn [many0_go]. now rewrite empty_none.
Qed.

(** ** Which characters can begin which block; [k] leading spaces *)
Section Begin.
  Variables (cfg : config) (rec : parser (list block)) (k : nat) (c : char) (s : str).
  Hypothesis Hk : k <= 3.
  Hypothesis Hc : inked c.
  Let src := rep k c_sp ++ c :: s.
  Lemma c_no_sp : c <> c_sp. Proof. destruct Hc as [_ X]. intros ->. discriminate X. Qed.
  Lemma up3_here : up_to_3_spaces src = Ok (c :: s) (rep k c_sp).
  Proof. apply up3; [exact Hk|]. apply no_space_cons, c_no_sp. Qed.
  Lemma starts_here : starts_line src. Proof. exists k, c, s. split; [reflexivity|exact Hc]. Qed.
  Lemma four_spaces_e : many_m_n 4 4 (chr " ") src = Err.
  Proof.
    unfold src. pose proof (sp_none (c :: s) (no_space_cons _ s c_no_sp)) as X.
    destruct k as [|[|[|[|k']]]]; [| | | |lia]; cbn [rep repeat app many_m_n pred];
      repeat (rewrite sp_char; match goal with |- context [(?a =? ?b)] => destruct (Nat.eqb_spec a b) as [Y|_]; [cbn [List.length] in Y; lia|] end);
      rewrite X; reflexivity.
  Qed.
  Lemma code_indented_e : p_code_block_indented src = Err.
  Proof.
    unfold p_code_block_indented, many1, preceded. apply bind_e, bind_e, bind_e. apply alt_err.
    apply Forall_cons1; [|apply Forall_cons1; [|constructor]]; apply unit_e; [exact four_spaces_e|].
    unfold src. destruct k as [|k']; [|reflexivity]. cbn [rep repeat app]. apply char_ne. destruct Hc as [_ X]. intros <-. discriminate X.
  Qed.
  Lemma after_up3 : forall A (q : parser A), q (c :: s) = Err -> preceded up_to_3_spaces q src = Err.
  Proof. intros A q E. unfold preceded, bind. now rewrite up3_here. Qed.
  Lemma fenced_e : c <> backtick -> c <> ch "~" -> p_code_block_fenced src = Err.
  Proof.
    intros H1 H2. unfold p_code_block_fenced. unfold bind at 1. rewrite up3_here. apply bind_e. apply lt_err. unfold pair_. apply bind_e.
    unfold recognize. rewrite alt_err; [reflexivity|].
    apply Forall_cons1; [|apply Forall_cons1; [|constructor]]; unfold many_ge; rewrite Nat.add_comm; cbn [plus many_m_n];
      [rewrite char_ne by congruence|rewrite chr_head by congruence]; reflexivity.
  Qed.
  Lemma code_block_e : c <> backtick -> c <> ch "~" -> p_code_block src = Err.
  Proof.
    intros H1 H2. unfold p_code_block. apply alt_err. apply Forall_cons1; [exact code_indented_e|]. apply Forall_cons1; [now apply fenced_e|constructor].
  Qed.
  Lemma heading_e : c <> ch "#" \/ 0 < k -> p_heading_v1 cfg src = Err.
  Proof.
    intros H. unfold p_heading_v1. apply bind_e. unfold src. cbn [many_m_n]. destruct k as [|k'].
    - cbn [rep repeat app]. rewrite chr_head; [reflexivity|]. destruct H as [H|H]; [congruence|lia].
    - reflexivity.
  Qed.
  Lemma level_e : c <> ch "=" -> c <> ch "-" -> p_heading_v2_level src = Err.
  Proof.
    intros H1 H2. unfold p_heading_v2_level. apply lt_err, after_up3. unfold terminated. apply bind_e, alt_err.
    apply Forall_cons1; [|apply Forall_cons1; [|constructor]]; apply pmap_e; unfold many1; apply bind_e, chr_head; congruence.
  Qed.
  Lemma thematic_e : c <> ch "-" -> c <> ch "_" -> c <> ch "*" -> p_thematic_break src = Err.
  Proof.
    intros H1 H2 H3. unfold p_thematic_break. apply unit_e, lt_err, after_up3. unfold terminated. apply bind_e, alt_err.
    repeat (apply Forall_cons1; [unfold many_ge; rewrite Nat.add_comm; cbn [plus many_m_n]; rewrite chr_head by congruence; reflexivity|]). constructor.
  Qed.
  Lemma quote_lines_e : c <> ch ">" -> p_quote_lines src = Err.
  Proof.
    intros H1. unfold p_quote_lines, many1. apply bind_e. unfold preceded at 1. apply bind_e. unfold p_quote_prefix. apply after_up3, chr_head. congruence.
  Qed.
  Lemma blockquote_e : c <> ch ">" -> p_blockquote rec src = Err.
  Proof. intros H1. unfold p_blockquote. apply bind_e. now apply quote_lines_e. Qed.
  Lemma alert_e : c <> ch ">" -> p_github_alert cfg rec src = Err.
  Proof.
    intros H1. unfold p_github_alert. apply bind_e. unfold peek, preceded at 1, bind, pair_, bind at 1.
    unfold p_quote_prefix. rewrite after_up3; [reflexivity|]. apply chr_head. congruence.
  Qed.
  Lemma html_e : c <> ch "<" -> p_html_block src = Err.
  Proof.
    intros H1. assert (T : forall t, tag (ch "<" :: t) (c :: s) = Err) by (intro t; apply tag_head; congruence).
    assert (C : chr "<" (c :: s) = Err) by (apply chr_head; congruence).
    unfold p_html_block. apply alt_err.
    apply Forall_cons1. { unfold p_html_block1. apply after_up3. unfold recognize, pair_, bind. now rewrite C. }
    apply Forall_cons1. { unfold p_html_block2. apply after_up3. unfold recognize, pair_, bind. change (lit "<!--") with (ch "<" :: lit "!--"). now rewrite T. }
    apply Forall_cons1. { unfold p_html_block3. apply after_up3. unfold recognize, pair_, bind. change (lit "<?") with (ch "<" :: lit "?"). now rewrite T. }
    apply Forall_cons1. { unfold p_html_block4. apply after_up3. unfold recognize, pair_, bind. change (lit "<!") with (ch "<" :: lit "!"). now rewrite T. }
    apply Forall_cons1. { unfold p_html_block5. apply after_up3. unfold recognize, pair_, bind. change (lit "<![CDATA[") with (ch "<" :: lit "![CDATA["). now rewrite T. }
    apply Forall_cons1.
    { unfold p_html_block6. apply after_up3. unfold recognize, pair_ at 1, bind. rewrite alt_err; [reflexivity|].
      apply Forall_cons1; [|apply Forall_cons1; [|constructor]]; apply unit_e; [change (lit "</") with (ch "<" :: lit "/"); now rewrite T|exact C]. }
    apply Forall_cons1; [|constructor].
    unfold p_html_block7. apply after_up3. unfold recognize at 1, pair_ at 1, bind at 1. rewrite alt_err; [reflexivity|].
    apply Forall_cons1; [|apply Forall_cons1; [|constructor]].
    - unfold p_open_html_tag, recognize, pair_, bind. now rewrite C.
    - unfold p_closing_html_tag, recognize, pair_, bind. change (lit "</") with (ch "<" :: lit "/"). now rewrite T.
  Qed.
  Lemma linkdef_e : c <> ch "[" -> p_link_definition cfg src = Err.
  Proof. intros H1. unfold p_link_definition. apply bind_e, after_up3, label_e. exact H1. Qed.
  Lemma footnote_lines_e : c <> ch "[" -> p_footnote_lines src = Err.
  Proof.
    intros H1. unfold p_footnote_lines. unfold bind at 1. rewrite up3_here. apply bind_e. change (lit "[^") with (ch "[" :: lit "^").
    apply tag_head. congruence.
  Qed.
  Lemma footnote_e : c <> ch "[" -> p_footnote_definition rec src = Err.
  Proof. intros H1. unfold p_footnote_definition. apply bind_e. now apply footnote_lines_e. Qed.
  Lemma table_row_e : c <> ch "|" -> p_table_row cfg src = Err.
  Proof. intros H1. unfold p_table_row. apply lt_err, after_up3. unfold delimited, preceded. apply bind_e, chr_head. congruence. Qed.
  Lemma table_e : c <> ch "|" -> p_table cfg src = Err.
  Proof. intros H1. unfold p_table. apply bind_e. now apply table_row_e. Qed.
  Lemma blank_e : line_terminated space0 src = Err.
  Proof.
    unfold line_terminated, terminated, bind. unfold src. rewrite space0_line by apply Hc. unfold value, pmap, bind. rewrite eol_char by apply Hc. reflexivity.
  Qed.
  Lemma marker_e : is_digit c = false -> c <> ch "*" -> c <> ch "+" -> c <> ch "-" -> p_list_marker (c :: s) = Err.
  Proof.
    intros H1 H2 H3 H4. unfold p_list_marker. apply alt_err.
    apply Forall_cons1. { unfold p_marker_ordered. apply pmap_e. unfold terminated. apply bind_e. unfold u64. cbn [span]. now rewrite H1. }
    repeat (apply Forall_cons1; [apply pmap_e, chr_head; congruence|]). constructor.
  Qed.
  (** a marker that is not followed by a space or the end of the line *)
  Lemma item_lines_e : (p_list_marker (c :: s) = Err \/
      exists r m, p_list_marker (c :: s) = Ok r m /\ exists d t, r = d :: t /\ inked d /\ d <> ch "[") ->
    p_list_item_lines src = Err.
  Proof.
    intros H. unfold p_list_item_lines. apply bind_e. unfold p_marker_with_span. apply alt_err.
    destruct H as [H|(r & m & H & d & t & -> & Hd & Hb)].
    - assert (M : preceded up_to_3_spaces p_list_marker src = Err) by now apply after_up3.
      apply Forall_cons1; [|apply Forall_cons1; [|constructor]].
      + apply pmap_e. unfold p_marker_newline. apply bind_e. unfold consumed. now rewrite M.
      + unfold pair_. apply bind_e. unfold p_marker_spaces. apply bind_e. unfold consumed, delimited, preceded, bind. rewrite up3_here.
        unfold terminated, bind. now rewrite H.
    - assert (M : preceded up_to_3_spaces p_list_marker src = Ok (d :: t) m) by (unfold preceded, bind; now rewrite up3_here).
      assert (D : d <> c_sp) by (intros ->; destruct Hd as [_ X]; discriminate X).
      assert (U : up_to_3_spaces (d :: t) = Ok (d :: t) []) by (apply (up3 0); [lia|now apply no_space_cons]).
      apply Forall_cons1; [|apply Forall_cons1; [|constructor]].
      + apply pmap_e. unfold p_marker_newline. unfold consumed at 1, bind at 1. rewrite M.
        unfold or_else. rewrite pmap_e by (apply (lt_char _ _ _ d t []); [apply (space0_line 0); apply Hd|apply Hd]).
        unfold bind at 1. unfold consumed. rewrite U. apply bind_e. apply lt_err. unfold p_task_state, delimited, preceded.
        apply bind_e. apply chr_head. congruence.
      + unfold pair_. apply bind_e. unfold p_marker_spaces. apply bind_e. unfold consumed, delimited, preceded, bind. rewrite up3_here.
        unfold terminated, bind. rewrite H. unfold value, pmap, bind. cbn [many_m_n].
        rewrite sp_none; [reflexivity|now apply no_space_cons].
  Qed.
  Lemma item_e : p_list_item_lines src = Err -> p_list_item rec src = Err.
  Proof. intros H. unfold p_list_item. now apply bind_e. Qed.
  Lemma list_e : p_list_item_lines src = Err -> p_list rec src = Err.
  Proof. intros H. unfold p_list, many1. now apply bind_e, bind_e, item_e. Qed.
End Begin.
