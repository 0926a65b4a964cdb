(** Reading printed link definitions. *)
From Coq Require Import String Lia.
From Verif Require SyntaxTable SyntaxDef SyntaxDoc.
From Verif Require Export RoundItem RoundSettle SpecRound.
Import ListNotations.
Open Scope list_scope.
Local Notation len := (@List.length _).

(** what is printed *)
Definition definition_text (label d : str) (t : option str) : str := lit "[" ++ label ++ lit "]: " ++ d ++ title_source t.
Lemma blank_title : forall r, blank_tail r -> ~ SpecInline.applies SpecBlock.definition_title r.
Proof.
  intros r Hr (x & u & w & m & E & N & (a & e & b & -> & Ha & Hb & He) & o & c & raw & Hoc & _ & ->).
  assert (NS : o <> c_nl /\ is_space o = false /\ o <> 13%N) by (cbn in Hoc; destruct Hoc as [X|[X|[X|[]]]]; injection X as <- <-; repeat split; discriminate). destruct NS as (N1 & N2 & N3).
  destruct Hr as [->|(j & t & ->)].
  - destruct ((a ++ e ++ b) ++ o :: raw ++ c :: u) eqn:X; [|discriminate]. now destruct (a ++ e ++ b).
  - assert (A0 : a = []). { destruct a as [|x0 a]; [reflexivity|]. cbn in E. injection E as <- _. inversion Ha as [|? ? X _]; subst. discriminate X. } subst a. cbn [app] in E.
    destruct He as [->|[->| ->]].
    + cbn [app] in *. destruct b as [|y b]; [congruence|]. cbn in E. injection E as <- _. inversion Hb as [|? ? X _]; subst. discriminate X.
    + cbn [app] in E. injection E as E. clear N. revert b E Hb. clear -N1 N2 N3. induction j as [|j IH]; intros b E Hb.
      * cbn [rep repeat app] in E. destruct b as [|y b]; cbn [app] in E; injection E as <- _; [now apply N1|]. inversion Hb as [|? ? X _]; subst. discriminate X.
      * cbn [rep repeat app] in E. destruct b as [|y b]; cbn [app] in E.
        -- injection E as <- _. discriminate N2.
        -- injection E as _ E. apply (IH b E). now inversion Hb.
    + cbn [app] in E. discriminate.
Qed.

Section Def.
Variables (entities : str -> option str) (punct : char -> bool) (upper : char -> str).
Let cfg := default_config entities punct upper.
Local Notation rec := (block_ cfg).
Local Notation reads := (RoundBlocks.reads entities punct upper).
Local Notation alts := (RoundBlocks.alts entities punct upper).
Local Notation starters := (RoundBlocks.starters entities punct upper).

Lemma definition_reads : forall k label l d t r, k <= 3 -> in_brackets label -> inline_many0 cfg label = Ok [] l -> plain_target d t -> blank_tail r ->
  p_link_definition cfg (rep k c_sp ++ definition_text label d t ++ r) = Ok (tl r) (LinkDefinition l d t).
Proof.
  intros k label l d t r Hk Hb Hl (Hd & Hbt & _ & Ht) Hr. pose proof (blank_tail_stops r Hr) as St.
  eapply SyntaxFacts.exact_ok; [apply SyntaxDef.exact_definition; [apply cfg_ok|discriminate]|]. exists label, d, t, l. split; [|split; [|reflexivity]].
  - replace (definition_text label d t ++ r) with (lit "[" ++ label ++ lit "]" ++ ch ":" :: [c_sp] ++ d ++ title_source t ++ r) by (unfold definition_text; rewrite <- !app_assoc; reflexivity).
    eapply SpecBlock.R_definition with (w := [c_sp]) (m := d ++ title_source t ++ r); [exact Hk|now apply brackets_at| | | |].
    + exists [c_sp], [], []. split; [reflexivity|]. split; [repeat constructor|]. split; [constructor|now left].
    + apply dest_bare; [exact Hd|exact Hbt|]. destruct t as [t|]; [apply bare_stop; (reflexivity || discriminate)|]. cbn [title_source app]. destruct r as [|x r]; [exact I|]. cbn in St. subst x. apply bare_stop; (reflexivity || discriminate).
    + instantiate (1 := r). destruct t as [t|]; [left|right; split; [reflexivity|split; [reflexivity|now apply blank_title]]]. destruct Ht as (_ & N1 & N2). exists t. split; [reflexivity|].
      exists [c_sp], (34%N :: t ++ 34%N :: r). split; [unfold title_source, quoted_title; rewrite <- !app_assoc; reflexivity|]. split; [discriminate|]. split; [exists [c_sp], [], []; split; [reflexivity|]; split; [repeat constructor|]; split; [constructor|now left]|].
      exists 34%N, 34%N, t. split; [now left|]. split; [|reflexivity]. clear - N1 N2. induction t as [|c t IH]; [constructor|]. apply title_char; [intros ->; apply N1; now left|intros ->; apply N2; now left|].
      apply IH; [intro I; apply N1; now right|intro I; apply N2; now right].
    + now apply stops_end.
  - now apply SyntaxInline2.inline_many0_reads; [apply cfg_ok|discriminate|].
Qed.
Lemma no_footnote : forall k x s, k <= 3 -> x <> ch "^" -> p_footnote_definition rec (rep k c_sp ++ ch "[" :: x :: s) = Err.
Proof.
  intros k x s Hk N. unfold p_footnote_definition. apply bind_e. unfold p_footnote_lines. unfold bind at 1. rewrite up3 by (exact Hk || now apply no_space_cons). apply bind_e.
  apply tag_err. intros r E. cbn in E. injection E as E _. contradiction.
Qed.
Lemma reads_definition : forall k label l d t, k <= 3 -> in_brackets label -> ~ begins_with (ch "^") label -> inline_many0 cfg label = Ok [] l -> plain_target d t ->
  reads (rep k c_sp ++ definition_text label d t) (BDefinition (LinkDefinition l d t)).
Proof.
  intros k label l d t Hk Hb Hc Hl Ht. assert (Hi : inked (ch "[")) by (repeat split; discriminate).
  assert (X : forall r, exists x u, definition_text label d t ++ r = ch "[" :: x :: u /\ x <> ch "^").
  { intros r. destruct Hb as ([(x & u & -> & W) _] & _). unfold definition_text. cbn [lit app]. eexists _, _. split; [reflexivity|]. intros ->. apply Hc. now exists u. }
  split. { destruct (X []) as (x & u & E & _). rewrite app_nil_r in E. exists k, (ch "["). eexists. split; [rewrite E; reflexivity|exact Hi]. }
  intros r Hr. rewrite <- app_assoc. pose proof (definition_reads k label l d t r Hk Hb Hl Ht Hr) as T. destruct (X r) as (x & u & E & Nx). rewrite E in *.
  rewrite alts_eq.
  rewrite or_e by (apply one_map_e; apply code_block_e; (assumption || discriminate)).
  rewrite or_e by (apply one_map_e; apply heading_e; try assumption; left; discriminate).
  rewrite or_e.
  2:{ apply one_e. apply no_paragraph; [exact Hi|]. do 7 apply Exists_cons_tl. apply Exists_cons_hd. exists (tl r), tt.
      cbn [conditional_unit default_config b_link_definition]. unfold p_unit, value, pmap, bind, ret. fold cfg. now rewrite T. }
  rewrite or_e by (apply one_e; apply pmap_e; apply thematic_e; (assumption || discriminate)).
  unfold tail_alts. fold cfg.
  rewrite or_e by (apply alert_e; (assumption || discriminate)).
  rewrite or_e by (apply one_map_e; apply blockquote_e; (assumption || discriminate)).
  rewrite or_e by (apply one_map_e; apply list_e; apply item_lines_e; try assumption; left; apply marker_e; (reflexivity || discriminate)).
  rewrite or_e by (apply one_map_e; apply html_e; (assumption || discriminate)).
  rewrite or_e by (apply one_map_e; now apply no_footnote).
  apply or_ok. now apply one_map_ok.
Qed.
End Def.
