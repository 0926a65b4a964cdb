(** Property C68: text is filled to the configured width.  Specification:
    SpecFlow.v ([layout]: the greedy layout of
    a whole document), SpecFill.v ([filled]: greedy filling; [line_columns]: the columns of a
    line), SpecMd.v ([words], [unsafe_word]). *)
From Coq Require Import String Lia List NArith.
From Verif Require Import Chars Ast Pretty MdPrinter SpecMd MdProps MdPanic SpecFill SpecFlow FlowFacts RoundBlocks ConformanceMd FillRich RoundLaid FillFacts.
Import ListNotations.
Open Scope list_scope.

(** ** Whole documents: unless rendering panics (C37), the output is the greedy
    layout of the document's view: every blank is a blank if the words up to
    the next blank or line break still fit in the line, and a line break if
    not; the content of a quote keeps to the configured width less the column
    of the quote and two, the content of an alert to 80 columns. *)
Theorem C68_layout : forall uwidth upper udigit big config d o,
  render_markdown uwidth upper udigit big d config = Some o <->
  ~ document_panics uwidth udigit config d /\ o = layout uwidth (md_width config) (document_view upper udigit config d).
Proof.
  intros uwidth upper udigit big config d o. split.
  - intro E. split; [|now apply greedy with (big := big)]. intro P. apply (proj2 (panics_exactly uwidth upper udigit big config d)) in P. congruence.
  - intros [N ->]. destruct (render_markdown uwidth upper udigit big d config) as [o|] eqn:E.
    + now rewrite (greedy _ _ _ _ _ _ _ E).
    + exfalso. apply N. now apply panics_exactly in E.
Qed.
Print Assumptions C68_layout.
Example C68_layout_nonvacuous :
  let d := Document [BList (MkList (Bullet Dash) [ListItem None [BParagraph [IText (lit "aaa bbb ccc")];
             BBlockQuote [BParagraph [IText (lit "ddd eee fff "); IEmphasis [IText (lit "ggg hhh")]]]]])] in
  let o := join [c_nl] [lit " - aaa bbb"; lit "   ccc"; lit "   "; lit "   > ddd eee"; lit "   > fff"; lit "   > *ggg"; lit "   > hhh*"] in
  md_render (with_width md_default 12) d = Some o /\ ~ document_panics (@List.length char) (fun _ => false) (with_width md_default 12) d.
Proof.
  intros d o. assert (E : md_render (with_width md_default 12) d = Some o) by (vm_compute; reflexivity). split; [exact E|]. exact (proj1 (proj1 (C68_layout _ _ _ _ _ _ _) E)).
Qed.

(** a text without blanks at its ends *)
Definition trimmed (t : str) : Prop :=
  (exists c r, t = c :: r /\ is_whitespace c = false) /\ (exists a c, t = a ++ [c] /\ is_whitespace c = false).
Lemma tokens_last : forall c l, is_whitespace c = false -> forall a, last (tk a (token_char c l)) None <> None \/ l <> [].
Proof.
  intros c l W. destruct l; [left|right; discriminate]. induction a as [|x a IH]; cbn [tk fold_right].
  - unfold token_char. rewrite W. discriminate.
  - fold (tk a (token_char c [])). revert IH. generalize (tk a (token_char c [])). intros [|o l] IH; [now elim IH|]. unfold token_char.
    destruct (is_whitespace x); destruct o as [w|]; try exact IH; try (destruct l; [discriminate|exact IH]); destruct l; try exact IH; discriminate.
Qed.
Lemma trimmed_tokens : forall t, trimmed t -> exists w ws, Forall plain_word (w :: ws) /\ words t = w :: ws /\ tokens t = Some w :: between ws.
Proof.
  intros t ((c & r & E1 & W1) & (a & d & E2 & W2)).
  assert (H1 : exists w l, tokens t = Some w :: l).
  { rewrite E1. unfold tokens. cbn [fold_right]. unfold token_char at 1. rewrite W1. destruct (fold_right token_char [] r) as [|[w|] l]; eauto. }
  assert (H2 : last (tokens t) None <> None).
  { rewrite E2. change (tokens (a ++ [d])) with (tk (a ++ [d]) []). rewrite tk_app. destruct (tokens_last d [] W2 a) as [H|H]; [exact H|congruence]. }
  pose proof (tokens_wf t) as H3. unfold words. destruct H1 as (w & l & E). rewrite E in *. clear E E1 E2.
  assert (G : forall l, wf_tokens l -> match l with Some _ :: _ => False | _ => True end -> last (Some w :: l) None <> None ->
    exists ws, Forall plain_word ws /\ flat_map (fun x => match x with Some w => [w] | None => [] end) l = ws /\ l = between ws).
  { clear. intros l. remember (List.length l) as n eqn:L. revert l L w. induction n as [n IH] using lt_wf_ind. intros l -> w WF H Z. destruct l as [|[x|] l].
    - exists []. repeat split; constructor.
    - contradiction.
    - inversion WF as [| |? WF1 N1]; subst. destruct l as [|[x|] l]; [now elim Z|  |contradiction].
      inversion WF1 as [|? ? X1 X2 WF2 N2|]; subst. destruct (IH (List.length l)) with (l := l) (w := x) as (ws & F & E & B); auto.
      + cbn. lia.
      + exists (x :: ws). split; [constructor; [now split|exact F]|]. split; [cbn; now rewrite E|]. rewrite B. reflexivity. }
  inversion H3 as [|? ? X1 X2 WF N|]; subst. destruct (G l WF N H2) as (ws & F & E & B). exists w, ws. split; [constructor; [now split|exact F]|]. split; [cbn; now rewrite E|]. now rewrite <- B.
Qed.

Theorem C68_paragraph : forall uwidth upper udigit big config t, trimmed t ->
  exists ls, concat ls = words t /\ filled uwidth udigit (md_width config) ls /\
    render_markdown uwidth upper udigit big (Document [BParagraph [IText t]]) config = Some (join [c_nl] (text_lines ls)).
Proof.
  intros uwidth upper udigit big config t H. destruct (trimmed_tokens t H) as (w & ws & F & E & T).
  destruct (fill_text uwidth udigit (md_width config) w ws t F T) as (ls & E1 & E2 & E3). exists ls. split; [congruence|]. split; [exact E2|]. exact E3.
Qed.
Print Assumptions C68_paragraph.
Lemma filled_lines : forall uwidth udigit width ls, filled uwidth udigit width ls -> Forall (fun l => l <> []) ls.
Proof. induction 1; (apply Forall_cons; [assumption|]); [apply Forall_nil|assumption]. Qed.
Lemma line_ends : forall l, l <> [] -> Forall plain_word l -> ~ In c_nl (join [c_sp] l) /\ exists y c, join [c_sp] l = y ++ [c] /\ c <> c_cr.
Proof.
  intros l N F. induction F as [|x l [X1 X2] F IH]; [congruence|].
  assert (X3 : ~ In c_nl x) by (intro I; rewrite Forall_forall in X2; now apply X2 in I).
  destruct l as [|y l].
  - cbn [join]. split; [exact X3|]. destruct (exists_last X1) as (a & c & ->). exists a, c. split; [reflexivity|]. intros ->. apply Forall_app in X2 as [_ X2]. inversion X2. discriminate.
  - rewrite join_cons by discriminate. destruct IH as [I1 (a & c & I2 & I3)]; [discriminate|]. split.
    + intro J. apply in_app_or in J as [J|[J|J]]; [contradiction|discriminate|contradiction].
    + rewrite I2. exists (x ++ [c_sp] ++ a), c. split; [now rewrite <- !app_assoc|exact I3].
Qed.
(** in a quote, the lines fill the width left by "> " *)
Theorem C68_quote : forall uwidth upper udigit big config t, trimmed t -> 2 <= md_width config ->
  exists ls, concat ls = words t /\ filled uwidth udigit (md_width config - 2) ls /\
    render_markdown uwidth upper udigit big (Document [BBlockQuote [BParagraph [IText t]]]) config
      = Some (join [c_nl] (map (app (lit "> ")) (text_lines ls))).
Proof.
  intros uwidth upper udigit big config t H W. destruct (trimmed_tokens t H) as (w & ws & F & E & T).
  destruct (fill_text uwidth udigit (md_width config - 2) w ws t F T) as (ls & E1 & E2 & E3). exists ls. split; [congruence|]. split; [exact E2|].
  assert (FL : Forall (fun x => ~ In c_nl x /\ exists y c, x = y ++ [c] /\ c <> c_cr) (text_lines ls)).
  { unfold text_lines. apply Forall_map. pose proof (filled_lines _ _ _ _ E2) as N. rewrite Forall_forall in *. intros l I. apply line_ends; [now apply N|].
    apply Forall_forall. intros x X. apply F. rewrite <- E1. apply in_concat. eauto. }
  unfold render_markdown, md_blocks. cbn [d_blocks map md_block]. unfold blocks_doc. cbn [map blocks_go append].
  unfold render. cbn [best]. unfold quote_at at 1.
  destruct (Nat.ltb_spec (md_width config) (0 + 2)); [lia|]. rewrite Nat.sub_0_r. rewrite E3. rewrite lines_join by exact FL.
  clear -E2. destruct E2 as [l N _|l next ls N _ _ _ _].
  - reflexivity.
  - change (text_lines (l :: next :: ls)) with (join [c_sp] l :: text_lines (next :: ls)). generalize (join [c_sp] l) as x. generalize (text_lines (next :: ls)) as xs. clear. intros xs x. cbn [map].
    change (append (DText (lit "> ")) (DText ?d)) with (DAppend (DText (lit "> ")) (DText d)). unfold intersperse.
    assert (G : forall xs acc, acc <> DNil -> fold_left (fun acc y => append (append acc DHardline) y) (map (fun d => DAppend (DText (lit "> ")) (DText d)) xs) acc
      = fold_left DAppend (flat_map (fun d => [DHardline; DAppend (DText (lit "> ")) (DText d)]) xs) acc).
    { clear. induction xs as [|y xs IH]; intros acc N; [reflexivity|]. cbn [map fold_left flat_map app]. rewrite <- IH by discriminate. f_equal. destruct acc; try reflexivity. congruence. }
    change (map (fun d => append (DText (lit "> ")) (DText d)) xs) with (map (fun d => DAppend (DText (lit "> ")) (DText d)) xs).
    rewrite G by discriminate. rewrite best_fold. cbn [run best].
    assert (R : forall xs p, exists p', run uwidth (md_width config) (flat_map (fun d => [DHardline; DAppend (DText (lit "> ")) (DText d)]) xs) [] p
      = Some (flat_map (fun d => c_nl :: lit "> " ++ d) xs, p')).
    { clear. induction xs as [|y xs IH]; intros p; [eexists; reflexivity|]. cbn [flat_map app run best pend map]. destruct (IH (0 + text_len uwidth (lit "> ") + text_len uwidth y)) as (p' & ->). eexists. reflexivity. }
    destruct (R xs (0 + text_len uwidth (lit "> ") + text_len uwidth x)) as (p' & ->). cbn [option_map fst]. f_equal. rewrite (join_flat [c_nl]), flat_map_map. reflexivity.
Qed.
Print Assumptions C68_quote.
(** For ASCII texts: no line is longer than the width if every word fits and
    begins no block. *)
Theorem C68_within_width : forall uwidth upper udigit big config t o,
  trimmed t -> Forall (fun c => is_ascii c = true) t ->
  (forall w, In w (words t) -> List.length w <= md_width config /\ ~ unsafe_word udigit w) ->
  render_markdown uwidth upper udigit big (Document [BParagraph [IText t]]) config = Some o ->
  Forall (fun l => List.length l <= md_width config) (lines o).
Proof.
  intros uwidth upper udigit big config t o H A Hw E. destruct (C68_paragraph uwidth upper udigit big config t H) as (ls & E1 & E2 & E3).
  rewrite E in E3. injection E3 as ->. destruct (trimmed_tokens t H) as (w & ws & F & Ew & T). rewrite Ew in *. rewrite <- E1 in F.
  assert (AW : forall x, In x (words t) -> Forall (fun c => is_ascii c = true) x).
  { clear -A. unfold words, tokens. induction A as [|c t Hc A IH]; [contradiction|]. cbn [fold_right]. intros x X. unfold token_char in X at 1.
    destruct (is_whitespace c).
    - apply IH. destruct (fold_right token_char [] t) as [|[?|] ?]; exact X.
    - destruct (fold_right token_char [] t) as [|[y|] l]; cbn in X.
      + destruct X as [<-|[]]. repeat constructor. exact Hc.
      + destruct X as [<-|X]; [constructor; [exact Hc|apply IH; now left]|apply IH; now right].
      + destruct X as [<-|X]; [repeat constructor; exact Hc|now apply IH]. }
  rewrite Ew in AW.
  assert (LC : forall l, Forall (fun x => Forall (fun c => is_ascii c = true) x) l -> List.length (join [c_sp] l) = line_columns uwidth l).
  { clear. intros l FA. induction FA as [|x l HA FA IH]; [reflexivity|].
    assert (CX : columns uwidth x = List.length x).
    { unfold columns, text_len. replace (forallb is_ascii x) with true; [reflexivity|]. symmetry. apply forallb_forall. now apply Forall_forall. }
    destruct l as [|y l]; [cbn; rewrite CX; cbn; lia|]. rewrite join_cons by discriminate. rewrite !app_length, IH. unfold line_columns. cbn [map list_sum fold_right List.length] in *. rewrite CX. lia. }
  rewrite lines_join.
  - unfold text_lines. apply Forall_map. apply Forall_forall. intros l I. rewrite LC.
    + assert (L : line_columns uwidth l <= md_width config \/ unbreakable udigit l).
      { clear - E2 I. induction E2 as [l0 N O|l0 next ls N O R S E2 IH]; destruct I as [<-|I]; auto. contradiction. }
      destruct L as [L|L]; [exact L|]. pose proof (filled_lines _ _ _ _ E2) as N. rewrite Forall_forall in N. specialize (N l I).
      assert (IW : forall x, In x l -> In x (concat ls)) by (intros x X; apply in_concat; eauto). rewrite E1 in IW.
      destruct l as [|x [|y l]]; [congruence| |].
      * rewrite <- LC; [|constructor; [|constructor]; apply AW, IW; now left]. cbn [join]. apply Hw. apply IW. now left.
      * inversion L as [|? ? U _]; subst. exfalso. apply (Hw y); [|exact U]. apply IW. right. now left.
    + apply Forall_forall. intros x X. apply AW. rewrite <- E1. apply in_concat. eauto.
  - unfold text_lines. apply Forall_map. pose proof (filled_lines _ _ _ _ E2) as N. rewrite Forall_forall in *. intros l I. apply line_ends; [now apply N|].
    apply Forall_forall. intros x X. apply F. apply in_concat. eauto.
Qed.
Print Assumptions C68_within_width.
(** ** Any paragraph: its inlines are printed as unbreakable texts and gaps
    ([atoms]; a gap before a word that would begin a block is no gap), and the
    segments between the gaps are packed greedily. *)
Theorem C68_any_paragraph : forall udigit, exists unsafe,
  (forall w, plain_word w -> (unsafe w = true <-> unsafe_word udigit w)) /\
  forall uwidth upper big config l, exists ls,
    concat ls = segments (flat_map (atoms unsafe) l) /\ packed uwidth (md_width config) ls /\
    render_markdown uwidth upper udigit big (Document [BParagraph l]) config = Some (packed_text ls).
Proof.
  intros udigit. exists (unsafe_at udigit). split; [intros w [W1 W2]; now apply unsafe_iff|].
  intros uwidth upper big config l. destruct (fill_rich uwidth (md_width config) _ _ (soft_inlines udigit l)) as (ls & A & B & C).
  exists ls. split; [exact A|]. split; [exact B|]. exact C.
Qed.
Print Assumptions C68_any_paragraph.
Example C68_any_paragraph_nonvacuous :
  segments (flat_map (atoms (fun _ => false)) [IText (lit "aa "); IEmphasis [IText (lit "bb cc")]; IText (lit " dd"); ICode (lit "e f")])
    = [[lit "aa"]; [lit "*"; lit "bb"]; [lit "cc"; lit "*"]; [lit "dd"; lit "`"; lit "e f"; lit "`"]] /\
  md_render (with_width md_default 8) (Document [BParagraph [IText (lit "aa "); IEmphasis [IText (lit "bb cc")]; IText (lit " dd"); ICode (lit "e f")]])
    = Some (lit "aa *bb" ++ [c_nl] ++ lit "cc*" ++ [c_nl] ++ lit "dd`e f`").
Proof. split; vm_compute; reflexivity. Qed.
(** Nested quotes do not leave room for the outer prefix: *)
Theorem C68_nested_quote_refuted : let t := lit "aaaa bbbb cccc dddd" in
  exists o, md_render (with_width md_default 12) (Document [BBlockQuote [BBlockQuote [BParagraph [IText t]]]]) = Some o /\
    ~ Forall (fun l => List.length l <= 12) (lines o).
Proof.
  eexists. split; [vm_compute; reflexivity|]. intro H. inversion H as [|? ? H1 H2]; subst. vm_compute in H1. lia.
Qed.
Print Assumptions C68_nested_quote_refuted.
Example C68_nonvacuous : trimmed (lit "aaaa bb - c dddd eeeeeeeeeeeeeee f") /\
  md_render (with_width md_default 10) (Document [BParagraph [IText (lit "aaaa bb - c dddd eeeeeeeeeeeeeee f")]])
  = Some (lit "aaaa bb -" ++ [c_nl] ++ lit "c dddd" ++ [c_nl] ++ lit "eeeeeeeeeeeeeee" ++ [c_nl] ++ lit "f").
Proof.
  split; [|vm_compute; reflexivity]. split; [eexists _, _; split; reflexivity|]. exists (lit "aaaa bb - c dddd eeeeeeeeeeeeeee "), (ch "f"). split; reflexivity.
Qed.
