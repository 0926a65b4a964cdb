(** Proof of C76: where custom inline parsers are consulted. *)
From Coq Require Import String Lia.
From Verif Require NumFacts.
From Verif Require Import SpecParser Nom NomFacts ParserInline ParserInlineFacts ParserBlock ParserTotal ParserPlain SyntaxFacts SyntaxInline2 SyntaxDoc SpecInline SpecBlock SpecCustom ShapeFacts CharFacts.
Import ListNotations.
Open Scope list_scope.

Lemma merged_one : forall x, merged [x].
Proof. intros x a s t b E. destruct a as [|y [|z a]]; discriminate E. Qed.

Section Text.
  Variable cfg : config.
  Hypothesis Hc : custom_ok cfg.
  Hypothesis Ht : i_text cfg = Parse.
  Lemma plain_not_special : forall c s, plain_text (c :: s) -> ~ special cfg (c :: s).
  Proof.
    intros c s H X. assert (Ht' : i_text cfg <> Ignore) by (rewrite Ht; discriminate). destruct (decides_special cfg _ (rec_safe cfg Hc) (rec_all cfg Hc Ht') Ht') as [_ D]. apply D in X as (r & a & X).
    pose proof (plain_not_text cfg (inline_many1 cfg) c s [] H I) as E. rewrite app_nil_r in E. congruence.
  Qed.
  Lemma no_element : forall s R, ~ special cfg s -> In R (element_rules cfg) -> ~ applies R s.
  Proof. intros s R N J X. apply N. left. apply Exists_exists. now exists R. Qed.
  Lemma first_after : forall A (l l' : list (rule A)) s p r, (forall R, In R l -> ~ applies R s) -> first_of l' s p r -> first_of (l ++ l') s p r.
  Proof. induction l as [|R l IH]; intros l' s p r H F; [exact F|]. cbn [app first_of]. right. split; [apply H; now left|]. apply IH; [|exact F]. intros R' J. apply H. now right. Qed.
  Lemma run_all : forall s, plain_text s -> run_of cfg s s [].
  Proof.
    induction s as [|c s IH]; intros H; [apply run_end; now left|]. apply run_char; [now apply plain_not_special|]. apply IH.
    now apply (plain_suffix [c] s).
  Qed.
  Lemma chunk_nil : forall v r, ~ chunk cfg [] v r.
  Proof.
    intros v r [E|[[_ E]|(_ & _ & N & E)]]; [inversion E| |inversion E; subst; congruence]. inversion E as [n v' r' N A B X|ds r' N A B X|x hs r' J N A B X]; discriminate X.
  Qed.
  Lemma text_all : forall s, s <> [] -> plain_text s -> r_text cfg s (PText s) [].
  Proof.
    intros s N H. replace (PText s) with (PText (concat [s])) by (cbn; now rewrite app_nil_r). constructor; [discriminate|].
    econstructor; [|constructor; apply chunk_nil]. destruct s as [|c s]; [congruence|].
    assert (NE : forall v r, ~ escape_at (c :: s) v r).
    { intros v r E. inversion E; subst. destruct H as [H _]. inversion H as [|? ? Hx _]; subst. apply Hx. cbn. tauto. }
    right. right. split; [exact NE|]. split; [|split; [discriminate|now apply run_all]].
    intros v r E. apply (plain_not_special c s H). right. now exists v, r.
  Qed.
  Lemma reads_text : forall s, s <> [] -> plain_text s -> answer (custom_inline cfg) s = Err -> reads cfg s [IText s].
  Proof.
    intros s N H A. apply Reads with [IText s]; [|apply joins_refl|apply merged_one].
    change [IText s] with ([IText s] ++ []). destruct s as [|c s]; [congruence|]. eapply P_more with (p := PText (c :: s)) (r := []); [| |constructor].
    - unfold inline_rules. apply first_after; [intros R J; apply no_element; [now apply plain_not_special|assumption]|].
      cbn [first_of]. right. split.
      + intros (p & r & X). inversion X as [q ? l ? C Y]; subst. rewrite C in A. cbn [answer] in A. congruence.
      + left. split; [rewrite Ht; discriminate|]. now apply text_all.
    - replace [IText (c :: s)] with (outcome IEmpty (behavior_of cfg (PText (c :: s))) (IText (c :: s))) by (cbn [behavior_of]; now rewrite Ht). constructor. constructor.
  Qed.
  Lemma reads_custom : forall s x, plain_text s -> s <> [] -> answer (custom_inline cfg) s = Ok [] [x] -> reads cfg s [x].
  Proof.
    intros s x H N A. apply Reads with [x]; [|apply joins_refl|apply merged_one].
    change [x] with ([x] ++ []). destruct s as [|c s]; [congruence|]. eapply P_more with (p := PCustom [x]) (r := []); [| |constructor].
    - unfold inline_rules. apply first_after; [intros R J; apply no_element; [now apply plain_not_special|assumption]|].
      cbn [first_of]. left. destruct (custom_inline cfg) as [p|] eqn:E; [|discriminate A]. now apply R_custom with p.
    - constructor.
  Qed.
  Lemma reads_autolink : forall u, i_autolink cfg = Parse -> uri u \/ email u -> reads cfg (lit "<" ++ u ++ lit ">") [IAutolink u].
  Proof.
    intros u Ha U. apply Reads with [IAutolink u]; [|apply joins_refl|apply merged_one].
    change [IAutolink u] with ([IAutolink u] ++ []). eapply P_more with (p := PAutolink u) (r := []); [| |constructor].
    - unfold inline_rules, element_rules. cbn [app first_of]. left. split; [rewrite Ha; discriminate|]. constructor. now split.
    - replace [IAutolink u] with (outcome IEmpty (behavior_of cfg (PAutolink u)) (IAutolink u)) by (cbn [behavior_of]; now rewrite Ha). constructor. constructor.
  Qed.
  (** a one-line heading *)
  Lemma heading_doc : forall s l, b_heading_v1 cfg = Parse -> b_paragraph cfg <> Ignore -> s <> [] -> ~ In 10%N s -> ~ begins_with c_sp s -> ~ begins_with c_tab s ->
    reads cfg s l -> parse_markdown cfg (lit "# " ++ s) = Ok [] (Document [BHeading (Heading (Atx 1) l)]).
  Proof.
    intros s l Hh Hp N NL N1 N2 R. apply parse_markdown_blocks; [assumption|rewrite Ht; discriminate|assumption|]. cbn [d_blocks].
    replace [BHeading (Heading (Atx 1) l)] with (outcome BEmpty (block_behavior cfg (HHeading (Atx (N.of_nat 1)) s)) (BHeading (Heading (Atx 1) l)) ++ []) by (cbn [block_behavior N.of_nat]; now rewrite Hh).
    eapply Blocks_more with (m := lit "# " ++ s) (r := []).
    - apply rep_stop. intros (v & r & _ & w & m & E & W & L). destruct W as [|c w Hc' _].
      + cbn [app] in E. subst m. inversion L as [e r' [->| ->] E|]; discriminate E.
      + injection E as <- _. discriminate Hc'.
    - unfold block_rules. cbn [first_of]. right. split.
      + intros (p & r & _ & X). inversion X as [? ls ? NE RP|? ? ? F]; subst.
        * inversion RP as [|? v m ls' r' (m' & [E|E] & _) _]; subst; [congruence|discriminate E|discriminate E].
        * inversion F as [k f n m0 info m1 ls m2 ? _ If Hn _ _ _ _ EQ]; subst.
          destruct k; [|discriminate EQ]. destruct n; [lia|]. cbn [rep app] in EQ. injection EQ as -> _. cbn in If. intuition discriminate.
      + left. split; [rewrite Hh; discriminate|]. unfold atx. change (lit "# " ++ s) with (rep 1 (ch "#") ++ [c_sp] ++ s). 
        constructor.
        * lia.
        * intros _ [t E]. discriminate E.
        * split; [reflexivity|]. split; [repeat constructor|]. intros c B. destruct (is_space c) eqn:E; [|reflexivity]. exfalso.
          unfold is_space in E. apply Bool.orb_prop in E as [E|E]; apply N.eqb_eq in E; subst c; contradiction.
        * discriminate.
        * exists []. split; [now rewrite app_nil_r|]. split; [assumption|]. split; [assumption|]. split; [constructor|]. intros [[t E] _]. discriminate E.
    - constructor. now constructor.
    - apply Blocks_end. constructor.
  Qed.
End Text.

(** ** A custom block at a place where no built-in block begins *)
Section Block.
  Variable cfg : config.
  Hypothesis Hc : custom_ok cfg.
  Hypothesis Ht : i_text cfg <> Ignore.
  Hypothesis Hp : b_paragraph cfg <> Ignore.
  Variables (c : char) (t : str).
  Hypothesis Hf : fresh c.
  Lemma fresh_not : forall x, In x (32%N :: 9%N :: 10%N :: 13%N :: lit "`~#=-_*+>|<[") -> c <> x.
  Proof. intros x J ->. now apply (proj2 Hf). Qed.
  Lemma after_rep : forall k x m, c :: t = rep k x ++ m -> c <> x -> m = c :: t.
  Proof. intros [|k] x m E N; [now symmetry|]. injection E as E _. congruence. Qed.
  Ltac no x := let J := fresh in pose proof (fresh_not x ltac:(cbn; tauto)) as J.
  Lemma fresh_marker : forall k r, ~ marker_at (c :: t) k r.
  Proof.
    intros k r H. inversion H as [ds n x r' NU _ _ E|x b r' J E]; subst.
    - apply NumFacts.numeral_dec in NU as (N & D & _). destruct D as [|d ds D _]; [congruence|]. injection E as -> _. destruct Hf as [Hd _]. congruence.
    - cbn in J. destruct J as [J|[J|[J|[]]]]; injection J as J _; symmetry in J; revert J; apply fresh_not; cbn; tauto.
  Qed.
  Ltac bad E := exfalso; first [revert E; apply fresh_not; cbn; tauto | symmetry in E; revert E; apply fresh_not; cbn; tauto].
  Lemma fresh_rules : forall R, In R (firstn 11 (block_rules cfg)) -> starter cfg (c :: t) -> ~ applies R (c :: t).
  Proof.
    intros R I ST (h & r & H). unfold block_rules in I. cbn [firstn In] in I.
    no 32%N. no 9%N. no 10%N. no 13%N. no (ch "`"). no (ch "~"). no (ch "#"). no (ch "-"). no (ch "_"). no (ch "*"). no (ch ">"). no (ch "|"). no (ch "<"). no (ch "[").
    repeat (destruct I as [<-|I]; [unfold on in H; try destruct H as [_ H]|]); try contradiction.
    - inversion H as [? ls ? NE RP|? ? ? F]; subst.
      + inversion RP as [|? v m ls' r' (m' & [E|E] & _) _]; subst; [congruence|injection E as E _; bad E|injection E as E _; bad E].
      + inversion F as [k f n m0 info m1 ls m2 ? _ If Hn _ _ _ _ EQ]; subst. symmetry in EQ. apply after_rep in EQ; [|assumption].
        destruct n; [lia|]. injection EQ as -> _. apply (proj2 Hf). cbn in If |- *. tauto.
    - inversion H as [n w m v ? L _ _ _ _ EQ]; subst. destruct n; [lia|]. injection EQ as EQ _. bad EQ.
    - inversion H as [? ls m l ? N RP _|? ls ? N RP _]; subst; (inversion RP as [|? v m' ls' r' (NS & _) _]; subst; [congruence|contradiction]).
    - inversion H as [k x n w m ? _ Hn J _ _ EQ]; subst. symmetry in EQ. apply after_rep in EQ; [|assumption]. destruct n; [lia|]. injection EQ as -> _. apply (proj2 Hf). cbn in J |- *. tauto.
    - inversion H as [? l ls ? u name ty RP _ _ _ _]; subst. inversion RP as [|? v m' ls' r' (k & m & EQ & _) _]; subst. apply after_rep in EQ; [|assumption]. injection EQ as EQ _. bad EQ.
    - inversion H as [? ls ? N RP _]; subst. inversion RP as [|? v m' ls' r' (k & m & EQ & _) _]; subst; [congruence|]. apply after_rep in EQ; [|assumption]. injection EQ as EQ _. bad EQ.
    - inversion H as [? k x items ? RP]; subst. inversion RP as [|? a m l ? IT _]; subst. inversion IT as [? k' n tt v m' ls ? ST' _]; subst.
      apply first_in in ST' as (R & I & X). destruct I as [<-|[<-|[<-|[]]]]; inversion X; subst;
        match goal with EQ : rep _ _ ++ _ = c :: t |- _ => symmetry in EQ; apply after_rep in EQ; [subst|assumption] end; eapply fresh_marker; eassumption.
    - inversion H as [k m v ? _ HT EQ]; subst. symmetry in EQ. apply after_rep in EQ; [subst|assumption].
      pose proof (html_begins _ _ _ HT) as [u E]. 
      assert (E2 : c :: t = v ++ r).
      { clear -HT. apply first_in in HT as (R & I & H). destruct I as [<-|[<-|[<-|[<-|[<-|[<-|[<-|[]]]]]]]].
        - now destruct H as (? & x & b & e & _ & E & _).
        - now destruct H as (b & _ & E & _).
        - now destruct H as (b & _ & E & _).
        - now destruct H as (? & _ & b & _ & E & _).
        - now destruct H as (b & _ & E & _).
        - now destruct H as (o & ? & x & b & e & m & _ & E & _).
        - now destruct H as (? & x & b & e & _ & E & _). }
      rewrite E in E2. injection E2 as E2 _. bad E2.
    - inversion H as [k label m m1 v m2 ls ? _ _ _ _ _ _ EQ]; subst. symmetry in EQ. apply after_rep in EQ; [|assumption]. injection EQ as EQ _. bad EQ.
    - inversion H as [k s0 label w m d m1 tt m2 ? _ (raw & E & _) _ _ _ _ EQ]; subst. symmetry in EQ. apply after_rep in EQ; [|assumption]. injection EQ as EQ _. bad EQ.
    - inversion H as [? header m1 al m2 rows ? (k & m & EQ & _) _ _ _]; subst. apply after_rep in EQ; [|assumption]. injection EQ as EQ _. bad EQ.
  Qed.
  Lemma custom_block_doc : forall x, answer (custom_block cfg) (c :: t) = Ok [] [x] ->
    parse_markdown cfg (c :: t) = Ok [] (Document [x]).
  Proof.
    intros x A. apply parse_markdown_blocks; [assumption..|]. cbn [d_blocks]. change [x] with ([x] ++ []).
    destruct (custom_block cfg) as [p|] eqn:E; [|discriminate A]. cbn [answer] in A.
    assert (RC : r_custom_block cfg (c :: t) (HCustom [x]) []) by now apply R_custom_block with p.
    assert (ST : starter cfg (c :: t)).
    { unfold starter. rewrite !Exists_cons. do 10 right. left. now exists (HCustom [x]), []. }
    eapply Blocks_more with (m := c :: t) (r := []) (h := HCustom [x]).
    - apply rep_stop. intros (v & r & _ & w & m & EQ & W & L). destruct W as [|y w Hy _].
      + cbn [app] in EQ. subst m. inversion L as [e r' IE E'|]; destruct IE as [->| ->]; cbn [app] in E'; injection E' as E' _; symmetry in E'; revert E'; apply fresh_not; cbn; tauto.
      + injection EQ as <- _. unfold is_space in Hy. apply Bool.orb_prop in Hy as [Hy|Hy]; apply N.eqb_eq in Hy; revert Hy; apply fresh_not; cbn; tauto.
    - change (block_rules cfg) with (firstn 11 (block_rules cfg) ++ skipn 11 (block_rules cfg)). apply first_after; [intros R J; now apply fresh_rules|]. left. exact RC.
    - constructor.
    - apply Blocks_end. constructor.
  Qed.
End Block.
