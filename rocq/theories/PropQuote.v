(** C65: what a block quote contains.  Prefixing every line of a source with
    ">" puts exactly its blocks into a quote; with "> " headings are lost. *)
From Coq Require Import String Lia List.
From Verif Require Import SpecParser Nom NomFacts ParserInlineFacts ParserBlock ParserBlockFacts EolBlocks PropParser SyntaxDef RoundCode RoundRead RoundMain PropBlank.
Import ListNotations.
Open Scope list_scope.
Local Notation len := (@List.length _).

(** [quote m s] is [s] with [m] before each of its lines *)
Fixpoint after_newlines (m s : str) : str :=
  match s with
  | [] => []
  | c :: r => if N.eqb c 10 then c :: m ++ after_newlines m r else c :: after_newlines m r
  end.
Definition quote (m s : str) : str := m ++ after_newlines m s.
(** [l] is the first line of [s] *)
Definition first_line (s l : str) : Prop := ~ In 10%N l /\ (s = l \/ exists r, s = l ++ 10%N :: r).

Lemma quote_lines_eq : forall m s, quote m s = join [c_nl] (map (app m) (split_lines s)).
Proof.
  intros m s. unfold quote. induction s as [|c s IH]; [cbn; now rewrite app_nil_r|]. cbn [after_newlines split_lines].
  pose proof (split_ne s) as Ne. change c_nl with 10%N in *. destruct (N.eqb_spec c 10) as [->|].
  - cbn [map]. rewrite join_cons by (intro X; now apply map_eq_nil in X). rewrite app_nil_r, <- IH. reflexivity.
  - destruct (split_lines s) as [|l ls]; [congruence|]. cbn [map] in *. destruct ls as [|l2 ls].
    + cbn [join map] in *. apply app_inv_head in IH. now rewrite IH.
    + cbn [map] in *. rewrite join_cons in * by discriminate. rewrite <- app_assoc in *. apply app_inv_head in IH. rewrite IH. reflexivity.
Qed.
Lemma first_hd : forall s l, first_line s l -> hd [] (split_lines s) = l.
Proof.
  intros s l [H [->|(r & ->)]]; [now rewrite split_one|]. change 10%N with c_nl. now rewrite split_app.
Qed.
Lemma lines_chars : forall s, ~ In 13%N s -> Forall (Forall line_char) (split_lines s).
Proof.
  intros s H. apply Forall_forall. intros l I. apply Forall_forall. intros c J. split.
  - intros ->. pose proof (split_free s) as F. rewrite Forall_forall in F. exact (F _ I J).
  - intros ->. apply H. change 13%N with c_cr. rewrite <- (split_join s). clear H. induction (split_lines s) as [|x ls IH]; [destruct I|].
    destruct ls as [|y ls]; [destruct I as [->|[]]; exact J|]. rewrite join_cons by discriminate. destruct I as [->|I]; [apply in_or_app; now left|].
    apply in_or_app; right. apply in_or_app; right. auto.
Qed.
Notation qline := (preceded p_quote_prefix (line_terminated not_eof_or_eol0)).
Lemma qline_reads : forall l t, Forall line_char l -> stops t -> qline (ch ">" :: l ++ t) = Ok (tl t) l.
Proof.
  intros l t F St. unfold p_quote_prefix, preceded, bind. change (ch ">" :: l ++ t) with (rep 0 c_sp ++ ch ">" :: l ++ t). rewrite up3 by (lia || now apply no_space_cons).
  unfold chr. rewrite char_same. apply (lt_stop _ _ _ t); [|exact St]. now apply (not_eol0_line l).
Qed.
Lemma mark_lines : forall ls n, ls <> [] -> Forall (Forall line_char) ls -> len (join [c_nl] (map (cons (ch ">")) ls)) < n ->
  many0_go n qline (join [c_nl] (map (cons (ch ">")) ls)) = Ok [] ls.
Proof.
  induction ls as [|l ls IH]; intros n Ne F L; [congruence|]. inversion F; subst. destruct n as [|n]; [ll|]. cbn [many0_go map] in *. destruct ls as [|l2 ls].
  - cbn [map join] in *. pose proof (qline_reads l [] H1 I) as R. rewrite app_nil_r in R. rewrite R. cbn [tl List.length Nat.eqb] in *.
    destruct n as [|n]; [ll|]. reflexivity.
  - rewrite join_cons in * by discriminate. cbn [app] in *. rewrite (qline_reads l (c_nl :: _) H1 eq_refl). cbn [tl].
    revert L. cbn [List.length]. rewrite app_length. cbn [List.length]. intro L. neq. rewrite IH; [reflexivity|discriminate|assumption|]. ll.
Qed.
Lemma mark_quote_lines : forall s, ~ In 13%N s -> p_quote_lines (quote (lit ">") s) = Ok [] (split_lines s).
Proof.
  intros s H. rewrite quote_lines_eq. pose proof (lines_chars s H) as F. pose proof (split_ne s) as Ne. destruct (split_lines s) as [|l ls]; [congruence|].
  inversion F; subst. unfold p_quote_lines, many1, bind. cbn [map]. destruct ls as [|l2 ls].
  - cbn [map join]. pose proof (qline_reads l [] H2 I) as R. rewrite app_nil_r in R. cbn [app lit]. change (lit ">" ++ l) with (ch ">" :: l). rewrite R. reflexivity.
  - cbn [map]. rewrite join_cons by discriminate. change ((lit ">" ++ l) ++ ?x) with (ch ">" :: l ++ x). cbn [app]. rewrite (qline_reads l (c_nl :: _) H2 eq_refl). cbn [tl].
    unfold pmap, bind, many0. pose proof (mark_lines (l2 :: ls) (S (len (join [c_nl] (map (cons (ch ">")) (l2 :: ls))))) ltac:(discriminate) H3 ltac:(lia)) as M.
    cbn [map] in M. change (lit ">" ++ l2) with (ch ">" :: l2). change (map (app (lit ">")) ls) with (map (cons (ch ">")) ls).
    rewrite M. reflexivity.
Qed.
Lemma cu_e : forall A (b : behavior A) p s, p s = Err -> conditional_unit b p s = Err.
Proof. intros A b p s E. destruct b; try exact E. reflexivity. Qed.
Lemma cv_e : forall b p s, p s = Err -> conditional_block_vec b p s = Err.
Proof. intros b p s E. destruct b; try exact E; [reflexivity|]. unfold conditional_block_vec, value. now apply pmap_e. Qed.
Lemma many0_many1 : forall A (p : parser A) s r l, eats true p -> many0 p s = Ok r l -> l <> [] -> many1 p s = Ok r l.
Proof.
  intros A p s r l X E N. unfold many1. unfold bind at 1. destruct (p s) as [r1 a| |] eqn:P.
  - rewrite (many0_step _ _ (eats_weaken _ _ _ X) _ r1 a P (eats_lt _ _ _ _ _ X P)) in E. unfold pmap, bind, ret. destruct (many0 p r1); try discriminate. now injection E as <- <-.
  - unfold many0 in E. cbn [many0_go] in E. rewrite P in E. congruence.
  - unfold many0 in E. cbn [many0_go] in E. now rewrite P in E.
Qed.
Section Quote.
  Variables (cfg : config) (rec : parser (list block)).
  Variables (s : str) (bs : list block).
  Hypothesis Hb : b_blockquote cfg = Parse.
  Hypothesis Hcr : ~ In 13%N s.
  Hypothesis Hin : exists r l, many1 rec s = Ok r l /\ concat l = bs.
  Let q := quote (lit ">") s.
  Lemma q_head : q = rep 0 c_sp ++ ch ">" :: after_newlines (lit ">") s. Proof. reflexivity. Qed.
  Lemma gt_inked : inked (ch ">"). Proof. repeat split; discriminate. Qed.
  Lemma q_blockquote : p_blockquote rec q = Ok [] bs.
  Proof.
    unfold p_blockquote, bind. unfold q. rewrite mark_quote_lines by exact Hcr. rewrite split_join. destruct Hin as (r & l & E & F). unfold pmap, bind, nested, ret. now rewrite E, F.
  Qed.
  Lemma q_line : p_is_paragraph_line_start cfg rec q = Err.
  Proof.
    unfold p_is_paragraph_line_start, peek, not_. cbn [alt].
    rewrite or_e by (apply cu_e, pmap_e; rewrite q_head; apply heading_e; [lia|left; discriminate]).
    rewrite or_e by (apply cu_e, pmap_e; rewrite q_head; apply level_e; [lia|exact gt_inked|discriminate|discriminate]).
    rewrite or_e by (apply cu_e; rewrite q_head; apply thematic_e; [lia|exact gt_inked|discriminate|discriminate|discriminate]).
    unfold or_else at 1. rewrite Hb. cbn [conditional_unit]. unfold p_unit, value, pmap, bind, ret. now rewrite q_blockquote.
  Qed.
  Lemma q_paragraph : p_heading_v2_or_paragraph cfg rec q = Err.
  Proof.
    unfold p_heading_v2_or_paragraph, p_paragraph. apply bind_e. unfold bind at 1, ret at 1. apply bind_e.
    assert (E : separated_list0 line_ending (preceded (p_is_paragraph_line_start cfg rec) (preceded up_to_3_spaces not_eof_or_eol1)) q = Ok q []).
    { unfold separated_list0. unfold preceded at 1, bind at 1. now rewrite q_line. }
    unfold q, quote in E |- *. cbn [app lit] in *. eapply lt_char; [exact E|split; discriminate].
  Qed.
  Lemma q_alert : forall l, first_line s l -> (forall name, to_uppercase cfg (trim l) <> lit "[!" ++ name ++ lit "]") -> p_github_alert cfg rec q = Err.
  Proof.
    intros l Hl Hn. unfold p_github_alert. unfold bind at 1, peek.
    assert (F : exists f r, preceded (pair_ p_quote_prefix (opt (chr " "))) (line_terminated not_eof_or_eol0) q = Ok r f /\ trim f = trim l).
    { assert (Fl : Forall line_char l).
      { pose proof (lines_chars s Hcr) as F. pose proof (split_ne s). rewrite <- (first_hd s l Hl). destruct (split_lines s); [congruence|]. now inversion F. }
      assert (Q : exists t, q = ch ">" :: l ++ t /\ stops t).
      { unfold q. rewrite quote_lines_eq. rewrite <- (first_hd s l Hl). pose proof (split_ne s). destruct (split_lines s) as [|x ls]; [congruence|]. cbn [map hd].
        destruct ls as [|y ls]; [exists []; cbn [map join]; rewrite app_nil_r; split; [reflexivity|exact I]|].
        cbn [map]. rewrite join_cons by discriminate. eexists. split; [rewrite <- app_assoc; cbn [app lit]; reflexivity|reflexivity]. }
      destruct Q as (t & -> & St). unfold preceded at 1, pair_, bind. unfold p_quote_prefix, preceded, bind.
      change (ch ">" :: l ++ t) with (rep 0 c_sp ++ ch ">" :: l ++ t). rewrite up3 by (lia || now apply no_space_cons). unfold chr at 1. rewrite char_same.
      unfold opt. destruct (chr " " (l ++ t)) as [r1 a| |] eqn:E.
      - assert (X : l = c_sp :: tl l /\ r1 = tl l ++ t).
        { destruct l as [|c l]; [destruct t as [|c t]; [discriminate|]; cbn in St; subst c; discriminate|]. cbn [app tl] in *. unfold chr, char_, satisfy in E. destruct (N.eqb_spec (ch " ") c); [|discriminate]. injection E as <- <-. now subst. }
        destruct X as [X ->]. inversion Fl; subst; [discriminate|]. cbn [tl] in *. injection X as ->.
        exists l0, (tl t). cbn [ret]. unfold pmap, bind. rewrite E. unfold ret. split; [|now rewrite trim_space]. apply (lt_stop _ _ _ t); [|exact St]. now apply not_eol0_line.
      - exists l, (tl t). split; [|reflexivity]. unfold pmap, bind. rewrite E. unfold ret. apply (lt_stop _ _ _ t); [|exact St]. now apply not_eol0_line.
      - exfalso. destruct (l ++ t); [discriminate|]. unfold chr, char_, satisfy in E. destruct (N.eqb _ _); discriminate. }
    destruct F as (f & r & -> & Ef). destruct (parse_alert_marker cfg (trim f)) eqn:M; [|reflexivity]. exfalso.
    apply C54_marker_exact in M. destruct M as (name & M & _). rewrite trim_idem, Ef in M. exact (Hn name M).
  Qed.
  Lemma q_block : b_github_alert cfg = Ignore \/ (forall l name, first_line s l -> to_uppercase cfg (trim l) <> lit "[!" ++ name ++ lit "]") ->
    p_block cfg rec q = Ok [] [BBlockQuote bs].
  Proof.
    intros Ha. assert (A : conditional_block_vec (b_github_alert cfg) (p_github_alert cfg rec) q = Err).
    { destruct Ha as [-> |Ha]; [reflexivity|]. apply cv_e. 
      pose proof (split_free s) as F. pose proof (split_join s) as J. pose proof (split_ne s). destruct (split_lines s) as [|l ls]; [congruence|]. inversion F as [|x0 l0 F1 F2 X0].
      assert (L : first_line s l).
      { split; [exact F1|]. rewrite <- J. destruct ls as [|y ls]; [now left|right]. rewrite join_cons by discriminate. eexists. reflexivity. }
      exact (q_alert l L (fun name => Ha l name L)). }
    unfold p_block, preceded. unfold bind at 1. rewrite many_empty0 by (exists 0, (ch ">"), (after_newlines (lit ">") s); split; [reflexivity|exact gt_inked]).
    cbn [alt].
    rewrite or_e by (apply cond_e, pmap_e; rewrite q_head; apply code_block_e; [lia|exact gt_inked|discriminate|discriminate]).
    rewrite or_e by (apply cond_e, pmap_e; rewrite q_head; apply heading_e; [lia|left; discriminate]).
    rewrite or_e by (apply cond_e; exact q_paragraph).
    rewrite or_e by (apply cond_e, pmap_e; rewrite q_head; apply thematic_e; [lia|exact gt_inked|discriminate|discriminate|discriminate]).
    rewrite or_e by exact A. unfold or_else at 1. rewrite Hb. unfold conditional_block, conditional. unfold pmap, bind, ret. now rewrite q_blockquote.
  Qed.
End Quote.
Lemma block_end : forall cfg n, block_f cfg (S n) [] = Err.
Proof. intros. reflexivity. Qed.
(** Whatever the source: putting ">" before each of its lines makes a quote of
    exactly the blocks of the source. *)
Theorem C65_quoting_partial : forall cfg s bs, custom_ok cfg -> b_blockquote cfg = Parse ->
  b_github_alert cfg = Ignore \/ (forall l name, first_line s l -> to_uppercase cfg (trim l) <> lit "[!" ++ name ++ lit "]") ->
  ~ In 13%N s -> parse_markdown cfg s = Ok [] (Document bs) -> bs <> [] ->
  parse_markdown cfg (quote (lit ">") s) = Ok [] (Document [BBlockQuote bs]).
Proof.
  intros cfg s bs Hc Hb Ha Hcr E Ne. set (q := quote (lit ">") s). unfold parse_markdown.
  assert (L : len s < len q).
  { unfold q, quote. assert (X : len s <= len (after_newlines (lit ">") s)).
    { clear. induction s as [|c s IH]; [cbn; lia|]. cbn [after_newlines]. destruct (N.eqb c 10); cbn [List.length]; rewrite ?app_length; ll. }
    rewrite app_length. change (len (lit ">")) with 1. ll. }
  rewrite <- (document_fuel cfg Hc (len q) s L) in E.
  assert (B : block_f cfg (S (len q)) q = Ok [] [BBlockQuote bs]).
  { cbn [block_f]. apply q_block; try assumption. unfold p_document, pmap, terminated, bind in E. destruct (many0 (block_f cfg (len q)) s) as [r l| |] eqn:M; try discriminate.
    exists r, l. unfold value, pmap, bind in E. destruct (pair_ (many0 (alt [space1; line_ending])) eof r) as [r2 x| |]; try discriminate. unfold ret in E. injection E as _ Ec. split; [|exact Ec].
    apply many0_many1; [apply eats_block_f; exact Hc|exact M|]. intros ->. now subst. }
  unfold p_document, pmap, terminated. unfold bind at 1. unfold bind at 1.
  rewrite (many0_step _ _ (eats_weaken _ _ _ (eats_block_f cfg Hc _)) q [] _ B) by (cbn; ll). cbn. reflexivity.
Qed.
Print Assumptions C65_quoting_partial.

(** With one to three spaces after ">" a line that begins with "#" is a paragraph,
    whatever it contains. *)
Section Hash.
  Variables (cfg : config) (rec : parser (list block)) (m : nat) (t : str).
  Hypothesis Hm : 1 <= m <= 3.
  Hypothesis Ht : Forall line_char t.
  Hypothesis Hb : custom_block cfg = None.
  Let src := rep m c_sp ++ ch "#" :: t.
  Lemma hash_inked : inked (ch "#"). Proof. repeat split; discriminate. Qed.
  Lemma hash_line : p_is_paragraph_line_start cfg rec src = Ok src tt.
  Proof.
    unfold p_is_paragraph_line_start, peek, not_. assert (Hk : m <= 3) by lia. pose proof hash_inked as Hi. unfold src.
    assert (L : p_list_item_lines (rep m c_sp ++ ch "#" :: t) = Err).
    { apply item_lines_e; [exact Hk|exact Hi|]. left. apply marker_e; try discriminate. reflexivity. }
    rewrite alt_err; [reflexivity|]. repeat apply Forall_cons1; try apply Forall_nil; try apply cu_e.
    all: try (match goal with |- p_unit _ _ = Err => apply unit_e end).
    - apply heading_e; [exact Hk|right; lia].
    - apply level_e; try assumption; discriminate.
    - apply thematic_e; try assumption; discriminate.
    - apply blockquote_e; try assumption; discriminate.
    - now apply item_e.
    - apply fenced_e; try assumption; discriminate.
    - apply html_e; try assumption; discriminate.
    - apply linkdef_e; try assumption; discriminate.
    - apply footnote_e; try assumption; discriminate.
    - apply table_e; try assumption; discriminate.
    - unfold p_custom_block. now rewrite Hb.
    - apply blank_e; assumption.
  Qed.
  Lemma hash_block : forall x, b_heading_v2 cfg = Parse -> inline_many1 cfg (ch "#" :: t) = Ok [] x -> p_block cfg rec src = Ok [] [BParagraph x].
  Proof.
    intros x H2 Ex. assert (Hk : m <= 3) by lia. pose proof hash_inked as Hi. unfold p_block, preceded. unfold bind at 1.
    rewrite many_empty0 by (exists m, (ch "#"), t; split; [reflexivity|exact Hi]). cbn [alt].
    rewrite or_e by (apply cond_e, pmap_e; apply code_block_e; try assumption; discriminate).
    rewrite or_e by (apply cond_e, pmap_e; apply heading_e; [exact Hk|right; lia]).
    unfold or_else at 1. rewrite H2. unfold conditional_block, conditional.
    assert (P : p_paragraph cfg rec true src = Ok [] x).
    { unfold p_paragraph. unfold bind at 1. unfold ret at 1.
      assert (E : separated_list0 line_ending (preceded (p_is_paragraph_line_start cfg rec) (preceded up_to_3_spaces not_eof_or_eol1)) src = Ok [] [ch "#" :: t]).
      { unfold separated_list0. unfold preceded at 1, bind at 1. rewrite hash_line. unfold preceded at 1, bind at 1. unfold src. rewrite up3 by (assumption || now apply no_space_cons).
        pose proof (not_eol1_line (ch "#" :: t) [] ltac:(discriminate) ltac:(constructor; [apply Hi|exact Ht]) I) as N. rewrite app_nil_r in N. rewrite N. reflexivity. }
      unfold bind at 1. pose proof (lt_stop _ _ _ [] _ E I) as K. unfold char, str in *. rewrite K. cbn [app join tl]. unfold nested. now rewrite Ex. }
    unfold p_heading_v2_or_paragraph, pmap. unfold bind at 1. unfold bind at 1. rewrite P. reflexivity.
  Qed.
End Hash.
Theorem C65_indented_partial : forall cfg m t, custom_ok cfg -> custom_block cfg = None -> i_text cfg <> Ignore -> b_heading_v2 cfg = Parse -> b_blockquote cfg = Parse ->
  1 <= m <= 3 -> ~ In 10%N t -> ~ In 13%N t ->
  exists x, inline_many1 cfg (lit "#" ++ t) = Ok [] x /\ parse_markdown cfg (lit ">" ++ rep m c_sp ++ lit "#" ++ t) = Ok [] (Document [BBlockQuote [BParagraph x]]).
Proof.
  intros cfg m t Hc Hn Ht H2 Hb Hm N1 N2. destruct (C43_inline_consumes_all cfg Hc Ht (lit "#" ++ t)) as [_ X]. destruct (X ltac:(discriminate)) as (x & E). exists x. split; [exact E|].
  assert (F : Forall line_char t) by (apply Forall_forall; intros c J; split; intros ->; contradiction).
  set (s := rep m c_sp ++ lit "#" ++ t).
  assert (Ns : ~ In 10%N s /\ ~ In 13%N s).
  { unfold s, rep. split; intro J; apply in_app_or in J; destruct J as [J|J]; try (apply repeat_spec in J; discriminate J); destruct J as [J|J]; try discriminate J; contradiction. }
  assert (Q : lit ">" ++ s = quote (lit ">") s) by (rewrite quote_lines_eq, split_one by apply Ns; reflexivity).
  rewrite Q.
  apply C65_quoting_partial; try assumption; try apply Ns; try discriminate.
  - right. intros l name [_ L]. assert (l = s) as ->. { destruct L as [->|(r & R)]; [reflexivity|]. elim (proj1 Ns). rewrite R. apply in_or_app. right. now left. }
    unfold s. rewrite trim_spaces. destruct (trim_head (ch "#") t eq_refl) as (t' & b & T & _). change (lit "#" ++ t) with (ch "#" :: t). rewrite T. cbn. discriminate.
  - unfold parse_markdown. assert (B : block_f cfg (S (len s)) s = Ok [] [BParagraph x]) by (cbn [block_f]; now apply hash_block).
    unfold p_document, pmap, terminated. unfold bind at 1. unfold bind at 1.
    rewrite (many0_step _ _ (eats_weaken _ _ _ (eats_block_f cfg Hc _)) s [] _ B) by (unfold s; rewrite !app_length; cbn; ll). reflexivity.
Qed.
Print Assumptions C65_indented_partial.
Example C65_example : let cfg := default_config (fun _ => None) (fun _ => false) (fun c => [c]) in
  (forall l name, first_line (lit "# a" ++ [10%N; 10%N] ++ lit "b") l -> to_uppercase cfg (trim l) <> lit "[!" ++ name ++ lit "]") /\
  parse_markdown cfg (lit "# a" ++ [10%N; 10%N] ++ lit "b") = Ok [] (Document [BHeading (Heading (Atx 1) [IText (lit "a")]); BParagraph [IText (lit "b")]]) /\
  quote (lit ">") (lit "# a" ++ [10%N; 10%N] ++ lit "b") = lit "># a" ++ [10%N] ++ lit ">" ++ [10%N] ++ lit ">b".
Proof.
  split; [|split; vm_compute; reflexivity]. intros l name L. apply first_hd in L. subst l. discriminate.
Qed.
