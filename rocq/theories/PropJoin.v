(** Property C91: the Markdown of a document is the Markdown of its blocks put
    together.  Specification: SpecJoin.v ([block_separator], [tidy]). *)
From Coq Require Import String Lia List NArith.
From Verif Require Import Chars Ast Pretty MdPrinter SpecMd MdProps SpecJoin JoinFacts JoinBlocks ConformanceMd.
Import ListNotations.
Open Scope list_scope.

(** Two documents put together: the Markdown of the first, a separator, the
    Markdown of the second; rendering panics exactly if it does for one of them. *)
Theorem C91_documents : forall uwidth upper udigit big config a x y b, tidy x ->
  render_markdown uwidth upper udigit big (Document ((a ++ [x]) ++ y :: b)) config =
  match render_markdown uwidth upper udigit big (Document (a ++ [x])) config,
        render_markdown uwidth upper udigit big (Document (y :: b)) config with
  | Some o, Some o' => Some (o ++ block_separator config (y :: b) ++ o')
  | _, _ => None
  end.
Proof. exact render_join. Qed.
Print Assumptions C91_documents.

(** Block by block. *)
Fixpoint joined (config : md_config) (l : list (block * str)) : str :=
  match l with
  | [] => []
  | (_, o) :: l' => o ++ match l' with [] => [] | (y, _) :: _ => block_separator config [y] ++ joined config l' end
  end.
Theorem C91_blocks : forall uwidth upper udigit big config l o, Forall tidy l ->
  render_markdown uwidth upper udigit big (Document l) config = Some o <->
  exists os, Forall2 (fun b ob => render_markdown uwidth upper udigit big (Document [b]) config = Some ob) l os /\
    o = joined config (combine l os).
Proof.
  intros uwidth upper udigit big config l o T. revert o. induction T as [|x l X T IH]; intro o.
  - split.
    + intro E. exists []. split; [constructor|]. cbn in E. injection E as <-. reflexivity.
    + intros (os & F & ->). inversion F; subst. reflexivity.
  - destruct l as [|y l].
    + split.
      * intro E. exists [o]. split; [repeat constructor; exact E|]. cbn. now rewrite app_nil_r.
      * intros (os & F & ->). inversion F as [|? ob ? ? A F']; subst. inversion F'; subst. cbn. now rewrite app_nil_r.
    + change (x :: y :: l) with (([] ++ [x]) ++ y :: l) at 1. rewrite C91_documents by exact X. cbn [app].
      set (r1 := render_markdown uwidth upper udigit big (Document [x]) config) in *. split.
      * intro E. destruct r1 as [o1|] eqn:E1; [|discriminate]. destruct (render_markdown uwidth upper udigit big (Document (y :: l)) config) as [o2|] eqn:E2; [|discriminate]. injection E as <-.
        destruct (proj1 (IH o2) eq_refl) as (os & F & ->). exists (o1 :: os). split; [now constructor|]. inversion F; subst. reflexivity.
      * intros (os & F & ->). inversion F as [|? ob ? os' A F']; subst. fold r1 in A. rewrite A. assert (E2 := proj2 (IH (joined config (combine (y :: l) os'))) (ex_intro _ os' (conj F' eq_refl))).
        rewrite E2. inversion F'; subst. reflexivity.
Qed.
Print Assumptions C91_blocks.

(** A block quote: the Markdown of its blocks, two columns narrower, with "> "
    before each line (no quotes inside: those are C68_nested_quote_refuted) *)
Lemma quoted_docs : forall uwidth width ls, render uwidth width (intersperse (map (fun d => append (DText (lit "> ")) (DText d)) ls) DHardline) = Some (join [c_nl] (map (app (lit "> ")) ls)).
Proof.
  intros uwidth width [|x xs]; [reflexivity|]. cbn [map]. change (append (DText (lit "> ")) (DText ?d)) with (DAppend (DText (lit "> ")) (DText d)). unfold intersperse.
  assert (G : forall xs acc, acc <> DNil -> fold_left (fun acc y => append (append acc DHardline) y) (map (fun d => DAppend (DText (lit "> ")) (DText d)) xs) acc
    = fold_left DAppend (flat_map (fun d => [DHardline; DAppend (DText (lit "> ")) (DText d)]) xs) acc).
  { clear. induction xs as [|y xs IH]; intros acc N; [reflexivity|]. cbn [map fold_left flat_map app]. rewrite <- IH by discriminate. f_equal. destruct acc; try reflexivity. congruence. }
  change (map (fun d => append (DText (lit "> ")) (DText d)) xs) with (map (fun d => DAppend (DText (lit "> ")) (DText d)) xs).
  rewrite G by discriminate. unfold render. rewrite FillFacts.best_fold. cbn [FillFacts.run best].
  assert (R : forall xs p, exists p', FillFacts.run uwidth width (flat_map (fun d => [DHardline; DAppend (DText (lit "> ")) (DText d)]) xs) [] p
    = Some (flat_map (fun d => c_nl :: lit "> " ++ d) xs, p')).
  { clear. induction xs as [|y xs IH]; intros p; [eexists; reflexivity|]. cbn [flat_map app FillFacts.run best FillFacts.pend map]. destruct (IH (0 + text_len uwidth (lit "> ") + text_len uwidth y)) as (p' & ->). eexists. reflexivity. }
  destruct (R xs (0 + text_len uwidth (lit "> ") + text_len uwidth x)) as (p' & ->). cbn [option_map fst]. f_equal. rewrite (RoundBlocks.join_flat [c_nl]), RoundBlocks.flat_map_map. reflexivity.
Qed.
Theorem C91_quote : forall uwidth upper udigit big config bs, (forall q, ~ In (BBlockQuote q) (flat_map block_preorder bs)) ->
  2 <= md_width config ->
  render_markdown uwidth upper udigit big (Document [BBlockQuote bs]) config =
  option_map (fun o => join [c_nl] (map (app (lit "> ")) (lines o)))
    (render_markdown uwidth upper udigit big (Document bs) (with_width config (md_width config - 2))).
Proof.
  intros uwidth upper udigit big config bs N W.
  assert (F : Forall (same_lay uwidth upper udigit big config (md_width config - 2)) bs) by (apply Forall_forall; intros b _; apply same_block).
  destruct (same_lay_blocks uwidth upper udigit big config (md_width config - 2) bs F N) as [E _].
  unfold render_markdown at 2. unfold md_blocks. cbn [d_blocks]. rewrite E. cbn [md_width with_width].
  unfold render_markdown, md_blocks. cbn [d_blocks map md_block]. unfold blocks_doc at 1. cbn [blocks_go append]. unfold render at 1. cbn [best]. unfold quote_at.
  destruct (Nat.ltb_spec (md_width config) (0 + 2)) as [H|_]; [lia|]. rewrite Nat.sub_0_r.
  destruct (render uwidth (md_width config - 2) _) as [t|]; [|reflexivity]. cbn [option_map]. apply quoted_docs.
Qed.
Print Assumptions C91_quote.

(** The condition is needed: an empty block at the end of a list item leaves
    the indentation of the item behind only if nothing follows. *)
Theorem C91_untidy_refuted : exists x y o o', ~ tidy x /\
  md_render md_default (Document [x]) = Some o /\ md_render md_default (Document [y]) = Some o' /\
  md_render md_default (Document [x; y]) <> Some (o ++ block_separator md_default [y] ++ o').
Proof.
  exists (BList (MkList (Bullet Dash) [ListItem None [BParagraph [IText (lit "a")]; BEmpty]])), BThematicBreak. eexists _, _.
  split; [cbn; tauto|]. split; [vm_compute; reflexivity|]. split; [vm_compute; reflexivity|]. vm_compute. discriminate.
Qed.
Print Assumptions C91_untidy_refuted.
Example C91_nonvacuous :
  let x := BList (MkList (Ordered 9) [ListItem None [BParagraph [IText (lit "a b")]]; ListItem (Some Complete) [BParagraph [IStrong [IText (lit "c ")]]; BList (MkList (Bullet Star) [ListItem None [BThematicBreak]])]]) in
  let y := BList (MkList (Bullet Plus) [ListItem None []]) in
  tidy x /\ md_render (with_empty_line_before_list md_default false) (Document [x; y]) =
    Some (lit " 9. a b" ++ [c_nl] ++ lit " 10. [X] **c **" ++ [c_nl] ++ lit "      * ---" ++ [c_nl] ++ lit " + ").
Proof. split; [|vm_compute; reflexivity]. cbn. split; [discriminate|exact I]. Qed.
