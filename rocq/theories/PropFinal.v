(** C82: line feeds at the end of the source. *)
From Coq Require Import String Lia List.
From Verif Require Import SpecParser SpecBlock SpecFinal Nom ParserInlineFacts ParserBlock FinalFacts PropParser PropBlockSyntax.
Import ListNotations.
Open Scope list_scope.

Theorem C82_final_newline_partial : forall cfg s, custom_ok cfg -> custom_block cfg = None -> i_text cfg <> Ignore -> b_paragraph cfg <> Ignore ->
  ~ ends_in 13%N s ->
  (b_link_definition cfg <> Ignore -> ~ ends_in (ch "\") s) ->
  (b_html_block cfg <> Ignore -> no_html s) ->
  parse_markdown cfg (s ++ [10%N]) = parse_markdown cfg s.
Proof.
  intros cfg s Hc Hn Ht Hp H1 H2 H3. destruct (C42_parse_total cfg Hc Ht Hp s) as ([bs] & E). rewrite E.
  apply (C70_block_syntax cfg Hc Ht Hp) in E. apply (C70_block_syntax cfg Hc Ht Hp). cbn [d_blocks] in *.
  set (defs := match b_link_definition cfg with Ignore => false | _ => true end).
  assert (D : defs = true <-> b_link_definition cfg <> Ignore) by (unfold defs; destruct (b_link_definition cfg); split; intro X; try congruence; try discriminate).
  refine (blocks_fin defs cfg Hn (proj2 D) s bs E _ _). split; [|exact H3]. left. split; [|reflexivity]. split; [exact H1|]. intro X. apply H2. now apply D.
Qed.
Print Assumptions C82_final_newline_partial.
(** several of them *)
Theorem C82_final_newlines_partial : forall cfg s n, custom_ok cfg -> custom_block cfg = None -> i_text cfg <> Ignore -> b_paragraph cfg <> Ignore ->
  ~ ends_in 13%N s ->
  (b_link_definition cfg <> Ignore -> ~ ends_in (ch "\") s) ->
  (b_html_block cfg <> Ignore -> no_html s) ->
  parse_markdown cfg (s ++ repeat 10%N n) = parse_markdown cfg s.
Proof.
  intros cfg s n Hc Hn Ht Hp. revert s. induction n as [|n IH]; intros s H1 H2 H3; [now rewrite app_nil_r|]. cbn [repeat].
  change (10%N :: repeat 10%N n) with ([10%N] ++ repeat 10%N n). rewrite app_assoc, IH; [now apply C82_final_newline_partial| | |].
  - intros (u & E). apply app_inj_tail in E. destruct E as [_ E]. discriminate.
  - intros _ (u & E). apply app_inj_tail in E. destruct E as [_ E]. discriminate.
  - intros O. specialize (H3 O). apply (no_html_fin false s (s ++ [10%N])); [|exact H3]. left. split; [split; [exact H1|discriminate]|reflexivity].
Qed.
Print Assumptions C82_final_newlines_partial.
(** none of the conditions can be dropped *)
Theorem C82_final_newline_refuted : forall entities punct upper,
  let cfg := default_config entities punct upper in
  parse_markdown cfg (lit "<p> a") = Ok [] (Document [BHtmlBlock (lit "<p> a")]) /\
  parse_markdown cfg (lit "<p> a" ++ [10%N]) = Ok [] (Document [BHtmlBlock (lit "<p> a" ++ [10%N])]) /\
  parse_markdown cfg (lit "[a]: b\") = Ok [] (Document [BDefinition (LinkDefinition [IText (lit "a")] (lit "b\") None)]) /\
  parse_markdown cfg (lit "[a]: b\" ++ [10%N]) = Ok [] (Document [BDefinition (LinkDefinition [IText (lit "a")] (lit "b\" ++ [10%N]) None)]) /\
  parse_markdown cfg (lit "a" ++ [13%N]) = Ok [] (Document [BParagraph [IText (lit "a" ++ [13%N])]]) /\
  parse_markdown cfg (lit "a" ++ [13%N; 10%N]) = Ok [] (Document [BParagraph [IText (lit "a")]]).
Proof. intros. repeat apply conj; vm_compute; reflexivity. Qed.
Print Assumptions C82_final_newline_refuted.
Definition opener (s : str) : bool := match s with [] => false | c :: _ => is_alpha c || existsb (N.eqb c) (lit "/!?") end.
Fixpoint html_free (at_start : bool) (s : str) : bool :=
  match s with
  | [] => true
  | c :: r => if N.eqb c (ch "<") then negb (at_start && opener r) && html_free false r
              else if N.eqb c 10 then html_free true r
              else if N.eqb c 32 then html_free at_start r else html_free false r
  end.
Lemma no_html_check : forall s, html_free true s = true -> no_html s.
Proof.
  assert (X : forall u st k v, html_free st (u ++ repeat 32%N k ++ ch "<" :: v) = true -> (u = [] /\ st = true) \/ ends_in 10%N u -> opener v = false).
  { induction u as [|c u IH]; intros st k v E U.
    - destruct U as [[_ ->]|(w & U)]; [|now destruct w]. induction k as [|k IHk]; [|exact (IHk E)]. cbn [repeat app html_free] in E.
      change (N.eqb (ch "<") (ch "<")) with true in E. cbv iota in E. apply andb_prop in E. destruct E as [E _]. cbn [andb] in E. now destruct (opener v).
    - assert (V : (u = [] /\ c = 10%N) \/ ends_in 10%N u).
      { destruct U as [[U _]|(w & U)]; [discriminate|]. destruct w as [|d w]; [injection U as -> ->; now left|]. injection U as _ ->. right. now exists w. }
      cbn [app html_free] in E. destruct (N.eqb_spec c (ch "<")) as [->|].
      + apply andb_prop in E. destruct E as [_ E]. apply (IH _ _ _ E). destruct V as [[_ V]|V]; [discriminate|now right].
      + destruct (N.eqb_spec c 10) as [->|]; [apply (IH _ _ _ E); destruct V as [[-> _]|V]; [now left|now right]|].
        destruct V as [[_ V]|V]; [congruence|]. destruct (N.eqb c 32); apply (IH _ _ _ E); now right. }
  intros s H u k c v -> U T. assert (O : opener (c :: v) = false) by (apply (X u true k (c :: v) H); destruct U as [->|U]; [now left|now right]).
  cbn [opener] in O. apply orb_false_iff in O. destruct O as [O1 O2]. destruct T as [T|T]; [congruence|].
  assert (existsb (N.eqb c) (lit "/!?") = true) by (apply existsb_exists; exists c; split; [exact T|apply N.eqb_refl]). congruence.
Qed.
(** the conditions allow "<", also at the beginning of a line, and lists, quotes,
    tables at the end *)
Example C82_example : let s := lit "<3 a" ++ [10%N] ++ lit "- b <http://c.d> | \x" in
  ~ ends_in 13%N s /\ ~ ends_in (ch "\") s /\ no_html s /\
  exists bs, parse_markdown (default_config (fun _ => None) (fun _ => false) (fun c => [c])) s = Ok [] (Document bs) /\ length bs = 2.
Proof.
  cbv zeta. split; [|split; [|split]].
  - intros (u & E). rewrite app_assoc in E. change (lit "- b <http://c.d> | \x") with (lit "- b <http://c.d> | \" ++ [ch "x"]) in E. rewrite app_assoc in E. apply app_inj_tail in E. destruct E as [_ E]. discriminate.
  - intros (u & E). rewrite app_assoc in E. change (lit "- b <http://c.d> | \x") with (lit "- b <http://c.d> | \" ++ [ch "x"]) in E. rewrite app_assoc in E. apply app_inj_tail in E. destruct E as [_ E]. discriminate.
  - apply no_html_check. vm_compute. reflexivity.
  - eexists. split; [vm_compute; reflexivity|reflexivity].
Qed.
