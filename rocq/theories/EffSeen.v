(** What is known, in the state reached, of the elements a parser gives. *)
From Coq Require Import String Lia.
From Verif Require Import SpecAst.
From Verif Require Export EffState.
Import ListNotations.
Open Scope list_scope.

Section Seen.
  Context {W : Type}.
  Variable rel : W -> W -> Prop.
  Hypothesis rrefl : forall w, rel w w.
  Hypothesis rtrans : forall a b c, rel a b -> rel b c -> rel a c.
  Notation moves := (moves rel).
  Definition stable (P : W -> Prop) : Prop := forall w w', rel w w' -> P w -> P w'.
  Definition gives {A} (P : W -> Prop) (Q : A -> W -> Prop) (p : eparser W A) : Prop :=
    forall s w r a w', P w -> p s w = (Ok r a, w') -> Q a w'.
  Notation any := (fun _ : W => True).
  Lemma stable_any : stable any. Proof. intros w w' _ _. exact I. Qed.
  Lemma gv_conseq : forall A (P P' : W -> Prop) (Q Q' : A -> W -> Prop) p, (forall w, P' w -> P w) -> (forall a w, Q a w -> Q' a w) -> gives P Q p -> gives P' Q' p.
  Proof. intros A P P' Q Q' p HP HQ H s w r a w' Hw E. eapply HQ, H; [apply HP, Hw|exact E]. Qed.
  Lemma gv_true : forall A (P : W -> Prop) (p : eparser W A), gives P (fun _ _ => True) p.
  Proof. intros A P p s w r a w' _ _. exact I. Qed.
  Lemma gv_lift : forall A (P : W -> Prop) (Q : A -> W -> Prop) (p : parser A), (forall a w, P w -> Q a w) -> gives P Q (lift p).
  Proof. intros A P Q p H s w r a w' Hw E. unfold lift in E. injection E as _ <-. now apply H. Qed.
  Lemma gv_ret : forall A (P : W -> Prop) (Q : A -> W -> Prop) (a : A), (forall w, P w -> Q a w) -> gives P Q (eret a).
  Proof. intros A P Q x H s w r a w' Hw E. unfold eret, lift, ret in E. injection E as _ <- <-. now apply H. Qed.
  Lemma gv_fail : forall A (P : W -> Prop) (Q : A -> W -> Prop), gives P Q efail.
  Proof. intros A P Q s w r a w' Hw E. discriminate E. Qed.
  Lemma gv_bind : forall A B (P : W -> Prop) (Q : A -> W -> Prop) (Q' : B -> W -> Prop) (p : eparser W A) f,
    stable P -> moves p -> gives P Q p -> (forall a, gives (fun w => P w /\ Q a w) Q' (f a)) -> gives P Q' (ebind p f).
  Proof.
    intros A B P Q Q' p f SP Mp Hp Hf s w r b w' Hw E. unfold ebind in E. pose proof (Mp s w) as M.
    destruct (p s w) as [[r1 a| |] w1] eqn:E1; try discriminate E. eapply Hf; [|exact E]. split; [eapply SP; [exact M|exact Hw]|eapply Hp; eassumption].
  Qed.
  Lemma gv_then : forall A B (P : W -> Prop) (Q' : B -> W -> Prop) (p : eparser W A) f,
    stable P -> moves p -> (forall a, gives P Q' (f a)) -> gives P Q' (ebind p f).
  Proof. intros A B P Q' p f SP Mp Hf. apply (gv_bind _ _ _ (fun _ _ => True)); try assumption; [apply gv_true|]. intro a. eapply gv_conseq; [| |apply Hf]; tauto. Qed.
  Lemma gv_map : forall A B (P : W -> Prop) (Q : A -> W -> Prop) (Q' : B -> W -> Prop) (f : A -> B) p, gives P Q p -> (forall a w, Q a w -> Q' (f a) w) -> gives P Q' (emap f p).
  Proof.
    intros A B P Q Q' f p Hp Hf s w r b w' Hw E. unfold emap, ebind in E. destruct (p s w) as [[r1 a| |] w1] eqn:E1; try discriminate E.
    unfold eret, lift, ret in E. injection E as <- <- <-. eapply Hf, Hp; eassumption.
  Qed.
  Lemma gv_value : forall A B (P : W -> Prop) (Q' : B -> W -> Prop) (v : B) (p : eparser W A), stable P -> moves p -> (forall w, P w -> Q' v w) -> gives P Q' (evalue v p).
  Proof. intros A B P Q' v p SP M H. unfold evalue, emap. apply gv_then; try assumption. intro a. now apply gv_ret. Qed.
  Lemma gv_nested : forall A (P : W -> Prop) (Q : A -> W -> Prop) p c, gives P Q p -> gives P Q (enested p c).
  Proof.
    intros A P Q p c H s w r a w' Hw E. unfold enested in E. destruct (p c w) as [[r1 a1| |] w1] eqn:E1; try discriminate E.
    injection E as <- <- <-. eapply H; eassumption.
  Qed.
  Lemma gv_preceded : forall A B (P : W -> Prop) (Q : B -> W -> Prop) (p : eparser W A) q, stable P -> moves p -> gives P Q q -> gives P Q (epreceded p q).
  Proof. intros. now apply gv_then. Qed.
  Lemma gv_terminated : forall A B (P : W -> Prop) (Q : A -> W -> Prop) (p : eparser W A) (q : eparser W B), stable P -> (forall a, stable (Q a)) -> moves p -> moves q -> gives P Q p -> gives P Q (eterminated p q).
  Proof.
    intros A B P Q p q SP SQ Mp Mq H. apply (gv_bind _ _ _ Q); try assumption. intro a. apply gv_value; [|exact Mq|tauto].
    intros w w' R [X Y]. split; [eapply SP|eapply SQ]; eassumption.
  Qed.
  Lemma gv_delimited : forall A B C (P : W -> Prop) (Q : B -> W -> Prop) (p : eparser W A) q (t : eparser W C), stable P -> (forall a, stable (Q a)) -> moves p -> moves q -> moves t -> gives P Q q -> gives P Q (edelimited p q t).
  Proof. intros. apply gv_preceded; try assumption. now apply gv_terminated. Qed.
  Lemma gv_or : forall A (P : W -> Prop) (Q : A -> W -> Prop) p q, stable P -> moves p -> gives P Q p -> gives P Q q -> gives P Q (eor_else p q).
  Proof.
    intros A P Q p q SP Mp H H' s w r a w' Hw E. unfold eor_else in E. pose proof (Mp s w) as M. destruct (p s w) as [[r1 a1| |] w1] eqn:E1; try discriminate E.
    - injection E as <- <- <-. eapply H; eassumption.
    - eapply H'; [|exact E]. eapply SP; [exact M|exact Hw].
  Qed.
  Lemma gv_alt : forall A (P : W -> Prop) (Q : A -> W -> Prop) l, stable P -> Forall (fun p => moves p /\ gives P Q p) l -> gives P Q (ealt l).
  Proof.
    intros A P Q l SP. induction 1 as [|p l [M H] Hl IH]; [apply gv_fail|]. destruct Hl; [exact H|]. exact (gv_or _ _ _ _ _ SP M H IH).
  Qed.
  Definition alls {A} (Q : A -> W -> Prop) (l : list A) (w : W) : Prop := Forall (fun a => Q a w) l.
  Lemma stable_alls : forall A (Q : A -> W -> Prop), (forall a, stable (Q a)) -> forall l, stable (alls Q l).
  Proof. intros A Q H l w w' R. apply Forall_impl. intros a. now apply H. Qed.
  Lemma gv_many0 : forall A (P : W -> Prop) (Q : A -> W -> Prop) p, stable P -> (forall a, stable (Q a)) -> moves p -> gives P Q p -> gives P (alls Q) (emany0 p).
  Proof.
    intros A P Q p SP SQ M H s w r l w' Hw E. unfold emany0 in E. revert E. generalize (S (List.length s)) as n. intros n E. revert s w r l w' Hw E.
    induction n as [|n IH]; intros s w r l w' Hw E; [discriminate E|]. cbn [emany0_go] in E. pose proof (M s w) as M1.
    destruct (p s w) as [[r1 a| |] w1] eqn:E1; try discriminate E.
    - destruct (_ =? _); [discriminate E|]. destruct (emany0_go n p r1 w1) as [[r2 l2| |] w2] eqn:E2; try discriminate E.
      injection E as <- <- <-. assert (P1 : P w1) by (eapply SP; [exact M1|exact Hw]). apply Forall_cons; [|eapply IH; eassumption].
      assert (R : rel w1 w2). { clear -E2 M rrefl rtrans. revert r1 w1 E2. revert r2 l2 w2. induction n as [|n IH]; intros r2 l2 w2 s w E; [discriminate E|]. cbn [emany0_go] in E. pose proof (M s w) as M1.
        destruct (p s w) as [[r a| |] w1]; try discriminate E; [|injection E as <- <- <-; exact M1]. destruct (_ =? _); [discriminate E|].
        destruct (emany0_go n p r w1) as [[r3 l3| |] w3] eqn:E3; try discriminate E. injection E as <- <- <-. eapply rtrans; [exact M1|]. eapply IH; exact E3. }
      eapply SQ; [exact R|]. eapply H; [exact Hw|exact E1].
    - injection E as <- <- <-. apply Forall_nil.
  Qed.
  Lemma gv_many1 : forall A (P : W -> Prop) (Q : A -> W -> Prop) p, stable P -> (forall a, stable (Q a)) -> moves p -> gives P Q p -> gives P (alls Q) (emany1 p).
  Proof.
    intros A P Q p SP SQ M H. unfold emany1. apply (gv_bind _ _ _ Q); try assumption. intro a.
    assert (SA : stable (fun w => P w /\ Q a w)) by (intros w w' R [X Y]; split; [eapply SP|eapply SQ]; eassumption).
    unfold emap. apply (gv_bind _ _ _ (alls Q)); try assumption.
    - apply (mv_many0 rel); assumption.
    - eapply gv_conseq; [| |apply (gv_many0 _ P Q); eassumption]; tauto.
    - intro l. apply gv_ret. intros w [[_ X] Y]. now apply Forall_cons.
  Qed.
  Lemma gv_sep1 : forall A B (P : W -> Prop) (Q : A -> W -> Prop) (sep : eparser W B) p, stable P -> (forall a, stable (Q a)) -> moves sep -> moves p -> gives P Q p -> gives P (alls Q) (eseparated_list1 sep p).
  Proof.
    intros A B P Q sep p SP SQ Ms M H. unfold eseparated_list1. apply (gv_bind _ _ _ Q); try assumption. intro a.
    assert (SA : stable (fun w => P w /\ Q a w)) by (intros w w' R [X Y]; split; [eapply SP|eapply SQ]; eassumption).
    unfold emap. apply (gv_bind _ _ _ (alls Q)); try assumption.
    - apply (mv_sep_go rel); assumption.
    - intros s w r l w' [Hw _] E. revert E. generalize (S (List.length s)) as n. intros n E. clear SA. assert (G : rel w w' /\ alls Q l w'); [|exact (proj2 G)]. revert s w r l w' Hw E.
      induction n as [|n IH]; intros s w r l w' Hw E; [discriminate E|]. cbn [esep_go] in E. pose proof (Ms s w) as M1.
      destruct (sep s w) as [[r1 b| |] w1] eqn:E1; cbn [snd] in M1; try discriminate E; [|injection E as <- <- <-; split; [exact M1|apply Forall_nil]].
      pose proof (M r1 w1) as M2. destruct (p r1 w1) as [[r2 x| |] w2] eqn:E2; cbn [snd] in M2; try discriminate E; [|injection E as <- <- <-; split; [eapply rtrans; eassumption|apply Forall_nil]].
      destruct (_ =? _); [discriminate E|]. destruct (esep_go n sep p r2 w2) as [[r3 l3| |] w3] eqn:E3; try discriminate E. injection E as <- <- <-.
      assert (P1 : P w1) by (eapply SP; [exact M1|exact Hw]). assert (P2 : P w2) by (eapply SP; [exact M2|exact P1]).
      destruct (IH _ _ _ _ _ P2 E3) as [R Y]. split; [eapply rtrans; [exact M1|eapply rtrans; eassumption]|]. apply Forall_cons; [|exact Y].
      eapply SQ; [exact R|]. eapply H; [exact P1|exact E2].
    - intro l. apply gv_ret. intros w [[_ X] Y]. now apply Forall_cons.
  Qed.

  (** ** Elements *)
  Variables (Qi : inline -> W -> Prop) (Qb : block -> W -> Prop).
  Hypothesis SQi : forall i, stable (Qi i).
  Hypothesis SQb : forall b, stable (Qb b).
  Definition ni : inline -> W -> Prop := fun i w => Forall (fun y => Qi y w) (inline_preorder i).
  Definition nb : block -> W -> Prop := fun b w => Forall (fun c => Qb c w /\ alls ni (block_inlines c) w) (block_preorder b).
  Lemma s_ni : forall i, stable (ni i). Proof. intros i w w' R. apply Forall_impl. intros a. now apply SQi. Qed.
  Lemma s_nis : forall l, stable (alls ni l). Proof. apply stable_alls, s_ni. Qed.
  Lemma s_nb : forall b, stable (nb b).
  Proof. intros b w w' R. apply Forall_impl. intros c [X Y]. split; [eapply SQb; eassumption|]. eapply s_nis; eassumption. Qed.
  Lemma s_nbs : forall l, stable (alls nb l). Proof. apply stable_alls, s_nb. Qed.
  Lemma alls_flat : forall l w, alls ni l w -> Forall (fun y => Qi y w) (flat_map inline_preorder l).
  Proof. intros l w H. apply Forall_flat_map. exact H. Qed.
  Lemma ni_intro : forall i w, Qi i w -> alls ni (inline_children i) w -> ni i w.
  Proof.
    intros i w H K. destruct i; apply Forall_cons; try exact H; try apply Forall_nil; cbn [inline_children] in K; try (apply alls_flat; exact K).
    apply Forall_app in K. destruct K as [K1 K2]. apply Forall_app. split; now apply alls_flat.
  Qed.
  Lemma blocks_flat : forall l w, alls nb l w -> Forall (fun c => Qb c w /\ alls ni (block_inlines c) w) (flat_map block_preorder l).
  Proof. intros l w H. apply Forall_flat_map. exact H. Qed.
  Lemma nb_intro : forall b w, Qb b w -> alls ni (block_inlines b) w -> alls nb (block_children b) w -> nb b w.
  Proof.
    intros b w H I K. destruct b; apply Forall_cons; try (split; [exact H|exact I]); try apply Forall_nil; cbn [block_children] in K; try (apply blocks_flat; exact K).
    assert (K' : Forall (fun it => Forall (fun b => nb b w) (li_blocks it)) (l_items l)) by (apply Forall_flat_map; exact K).
    apply Forall_flat_map. eapply Forall_impl; [|exact K']. intros it X. now apply blocks_flat.
  Qed.

  (** what the hooks and switches guarantee for a kind [K] *)
  Definition hook_i (K : inline -> Prop) (b : ebehavior W inline) : Prop :=
    match b with
    | EParse => forall a w, K a -> Qi a w
    | EMap f => forall a w, K a -> alls ni (inline_children a) w -> ni (fst (f a w)) (snd (f a w))
    | EFlatMap f => forall a w, K a -> alls ni (inline_children a) w -> alls ni (fst (f a w)) (snd (f a w))
    | _ => True
    end.
  Definition hook_b (K : block -> Prop) (b : ebehavior W block) : Prop :=
    match b with
    | EParse => forall a w, K a -> Qb a w
    | EMap f => forall a w, K a -> alls ni (block_inlines a) w -> alls nb (block_children a) w -> nb (fst (f a w)) (snd (f a w))
    | EFlatMap f => forall a w, K a -> alls ni (block_inlines a) w -> alls nb (block_children a) w -> alls nb (fst (f a w)) (snd (f a w))
    | _ => True
    end.
  Variable E : econfig W.
  Hypothesis HE : config_moves rel E.
  Hypothesis no_custom_b : e_custom_block E = None.
  Hypothesis no_custom_i : e_custom_inline E = None.
  Hypothesis Qtext : forall t w, Qi (IText t) w.
  Hypothesis Qemph : forall c w, Qi (IEmphasis c) w.
  Hypothesis Qempty : forall w, Qi IEmpty w.
  Hypothesis Qbempty : forall w, Qb BEmpty w.
  Hypothesis Qalert : forall a w, Qb (BGitHubAlert a) w.
  Hypothesis Hauto : hook_i (fun i => exists u, i = IAutolink u) (ei_autolink E).
  Hypothesis Hlink : hook_i (fun i => exists l, i = ILink l) (ei_link E).
  Hypothesis Hfoot : hook_i (fun i => exists l, i = IFootnoteReference l) (ei_footnote_reference E).
  Hypothesis Href : hook_i (fun i => exists l, i = ILinkReference l) (ei_reference_link E).
  Hypothesis Hhard : hook_i (fun i => i = ILineBreak) (ei_hard_newline E).
  Hypothesis Himage : hook_i (fun i => exists m, i = IImage m) (ei_image E).
  Hypothesis Hcode : hook_i (fun i => exists c, i = ICode c) (ei_code_span E).
  Hypothesis Hemph : hook_i (fun i => (exists c, i = IEmphasis c) \/ (exists c, i = IStrong c)) (ei_emphasis E).
  Hypothesis Hstrike : hook_i (fun i => exists c, i = IStrikethrough c) (ei_strikethrough E).
  Hypothesis Htext : hook_i (fun i => exists t, i = IText t) (ei_text E).
  Hypothesis Bquote : hook_b (fun b => exists l, b = BBlockQuote l) (eb_blockquote E).
  Hypothesis Bhead1 : hook_b (fun b => exists h, b = BHeading h) (eb_heading_v1 E).
  Hypothesis Bhead2 : hook_b (fun b => (exists h, b = BHeading h) \/ (exists l, b = BParagraph l)) (eb_heading_v2 E).
  Hypothesis Bbreak : hook_b (fun b => b = BThematicBreak) (eb_thematic_break E).
  Hypothesis Blist : hook_b (fun b => exists l, b = BList l) (eb_list E).
  Hypothesis Bcode : hook_b (fun b => exists l, b = BCodeBlock l) (eb_code_block E).
  Hypothesis Bhtml : hook_b (fun b => exists l, b = BHtmlBlock l) (eb_html_block E).
  Hypothesis Bfoot : hook_b (fun b => exists l, b = BFootnoteDefinition l) (eb_footnote_definition E).
  Hypothesis Bdef : hook_b (fun b => exists l, b = BDefinition l) (eb_link_definition E).
  Hypothesis Btable : hook_b (fun b => exists l, b = BTable l) (eb_table E).
  Hypothesis Bpar : hook_b (fun b => exists l, b = BParagraph l) (eb_paragraph E).

  Notation gi := (gives any (alls ni)).
  Notation gb := (gives any (alls nb)).
  Lemma gv_cond_i : forall (K : inline -> Prop) b p, hook_i K b -> hook_moves rel b -> moves p ->
    gives any (fun i w => K i /\ alls ni (inline_children i) w) p -> gi (econditional_inline b p).
  Proof.
    intros K b p Hb Mb M H. unfold econditional_inline. destruct b as [| | |f|f]; cbn [econditional hook_i hook_moves] in *.
    - eapply gv_map; [exact H|]. intros a w [X Y]. apply Forall_cons; [|apply Forall_nil]. apply ni_intro; auto.
    - apply gv_fail.
    - apply gv_value; [apply stable_any|exact M|]. intros w _. apply Forall_cons; [|apply Forall_nil]. apply ni_intro; [apply Qempty|apply Forall_nil].
    - eapply (gv_map _ _ _ ni); [|intros a w X; apply Forall_cons; [exact X|apply Forall_nil]].
      unfold erun. eapply gv_bind; [apply stable_any|exact M|exact H|]. cbn. intros a s w r x w' [_ [X Y]] Q.
      specialize (Hb a w X Y). destruct (f a w) as [x' w1]. injection Q as <- <- <-. exact Hb.
    - unfold erun. eapply gv_bind; [apply stable_any|exact M|exact H|]. cbn. intros a s w r x w' [_ [X Y]] Q.
      specialize (Hb a w X Y). destruct (f a w) as [x' w1]. injection Q as <- <- <-. exact Hb.
  Qed.
  Lemma gv_cond_b : forall (K : block -> Prop) b p, hook_b K b -> hook_moves rel b -> moves p ->
    gives any (fun x w => K x /\ alls ni (block_inlines x) w /\ alls nb (block_children x) w) p -> gb (econditional_block b p).
  Proof.
    intros K b p Hb Mb M H. unfold econditional_block. destruct b as [| | |f|f]; cbn [econditional hook_b hook_moves] in *.
    - eapply gv_map; [exact H|]. intros a w (X & Y & Z). apply Forall_cons; [|apply Forall_nil]. apply nb_intro; auto.
    - apply gv_fail.
    - apply gv_value; [apply stable_any|exact M|]. intros w _. apply Forall_cons; [|apply Forall_nil]. apply nb_intro; [apply Qbempty|apply Forall_nil|apply Forall_nil].
    - eapply (gv_map _ _ _ nb); [|intros a w X; apply Forall_cons; [exact X|apply Forall_nil]].
      unfold erun. eapply gv_bind; [apply stable_any|exact M|exact H|]. cbn. intros a s w r x w' (_ & X & Y & Z) Q.
      specialize (Hb a w X Y Z). destruct (f a w) as [x' w1]. injection Q as <- <- <-. exact Hb.
    - unfold erun. eapply gv_bind; [apply stable_any|exact M|exact H|]. cbn. intros a s w r x w' (_ & X & Y & Z) Q.
      specialize (Hb a w X Y Z). destruct (f a w) as [x' w1]. injection Q as <- <- <-. exact Hb.
  Qed.
  Lemma gv_leaf : forall (K : inline -> Prop) p, (forall s r a, p s = Ok r a -> K a /\ inline_children a = []) ->
    gives any (fun i w => K i /\ alls ni (inline_children i) w) (lift p).
  Proof.
    intros K p H s w r a w' _ Q. unfold lift in Q. injection Q as Q <-. destruct (H _ _ _ Q) as [X Y]. split; [exact X|]. rewrite Y. apply Forall_nil.
  Qed.
  Lemma merge_go_all : forall l w acc, alls ni l w -> alls ni (merge_go acc l) w.
  Proof.
    assert (T : forall t w, ni (IText t) w) by (intros; apply ni_intro; [apply Qtext|apply Forall_nil]).
    induction l as [|i l IH]; intros w acc H.
    - destruct acc; cbn; [apply Forall_cons; [apply T|]|]; apply Forall_nil.
    - inversion H; subst. destruct i; cbn [merge_go]; try (apply IH; assumption);
        (apply Forall_app; split; [destruct acc; [apply Forall_cons; [apply T|]|]; apply Forall_nil|apply Forall_cons; [assumption|apply IH; assumption]]).
  Qed.
  Lemma concat_all : forall A (Q : A -> W -> Prop) ll w, alls (alls Q) ll w -> alls Q (concat ll) w.
  Proof. intros A Q ll w H. apply Forall_concat. exact H. Qed.

  Section InlSeen.
    Variable r : eparser W (list inline).
    Hypothesis Mr : moves r.
    Hypothesis Hr : gi r.
    Lemma m_label : moves (ep_link_label r). Proof. now apply mv_label. Qed.
    Lemma gv_label : gi (ep_link_label r).
    Proof.
      unfold ep_link_label. apply gv_delimited; try apply stable_any; try apply s_nis; try (apply (mv_lift rel); assumption).
      - apply mv_bind; try assumption; [now apply mv_lift|]. intro. now apply mv_nested.
      - apply gv_then; [apply stable_any|now apply mv_lift|]. intro. now apply gv_nested.
    Qed.
    Lemma gv_link : gives any (fun l w => alls ni (link_children l) w) (ep_inline_link r).
    Proof.
      unfold ep_inline_link. eapply gv_bind; [apply stable_any|apply m_label|apply gv_label|]. intro c.
      apply gv_then; [intros w w' R [_ X]; split; [exact I|eapply s_nis; eassumption]|now apply mv_lift|]. intros [d t]. apply gv_ret. intros w [_ X]. exact X.
    Qed.
    Lemma gv_ref : gives any (fun i w => (exists l, i = ILinkReference l) /\ alls ni (inline_children i) w) (ep_reference_link r).
    Proof.
      pose proof m_label as Ml. unfold ep_reference_link. apply gv_alt; [apply stable_any|]. repeat apply Forall_cons; try apply Forall_nil; split.
      - apply mv_bind; try assumption. intro. apply mv_bind; try assumption. intro. now apply mv_lift.
      - eapply gv_bind; [apply stable_any|exact Ml|apply gv_label|]. intro t. eapply gv_bind; [intros w w' R [_ X]; split; [exact I|eapply s_nis; eassumption]|exact Ml| |].
        + eapply gv_conseq; [| |apply gv_label]; [intros; exact I|intros a w X; exact X].
        + intro l. apply gv_ret. intros w [[_ X] Y]. split; [eexists; reflexivity|]. apply Forall_app. now split.
      - apply mv_map; try assumption. apply mv_terminated; try assumption. now apply mv_lift.
      - eapply (gv_map _ _ _ (alls ni)); [apply gv_terminated; try apply stable_any; try apply s_nis; try apply gv_label; try assumption; now apply mv_lift|].
        intros a w X. split; [eexists; reflexivity|]. apply Forall_app. now split.
      - now apply mv_map.
      - eapply (gv_map _ _ _ (alls ni)); [apply gv_label|]. intros a w X. split; [eexists; reflexivity|]. apply Forall_app. now split.
    Qed.
    Lemma gv_emph : forall t, moves (ep_emph E r t) /\ gi (ep_emph E r t).
    Proof.
      intro t. assert (M : moves (ep_emphasis_content r (p_close_tag (plain_config E) t))).
      { unfold ep_emphasis_content. apply mv_bind; try assumption; [now apply mv_lift|]. intro. now apply mv_nested. }
      unfold ep_emph. split.
      - apply mv_delimited; try assumption; now apply mv_lift.
      - apply gv_delimited; try apply stable_any; try apply s_nis; try (apply (mv_lift rel); assumption); try exact M.
        unfold ep_emphasis_content. apply gv_then; [apply stable_any|now apply mv_lift|]. intro. now apply gv_nested.
    Qed.
    Lemma gv_emph2 : forall t t', moves (ealt [ep_emph E r t; ep_emph E r t']) /\ gi (ealt [ep_emph E r t; ep_emph E r t']).
    Proof.
      intros t t'. split; [apply mv_alt|apply gv_alt]; try apply stable_any; try assumption; repeat apply Forall_cons; try apply Forall_nil; apply gv_emph.
    Qed.
    Lemma gv_emphasis : gives any (fun i w => ((exists c, i = IEmphasis c) \/ (exists c, i = IStrong c)) /\ alls ni (inline_children i) w) (ep_emphasis E r).
    Proof.
      unfold ep_emphasis. apply gv_alt; [apply stable_any|]. repeat apply Forall_cons; try apply Forall_nil; (split; [apply mv_map; try assumption; apply gv_emph2|]);
        (eapply (gv_map _ _ _ (alls ni)); [apply gv_emph2|]; intros a w X).
      - split; [right; eexists; reflexivity|]. apply Forall_cons; [|apply Forall_nil]. apply ni_intro; [apply Qemph|exact X].
      - split; [right; eexists; reflexivity|exact X].
      - split; [left; eexists; reflexivity|exact X].
    Qed.
    Lemma gv_strike : gives any (fun i w => (exists c, i = IStrikethrough c) /\ alls ni (inline_children i) w) (ep_strikethrough r).
    Proof.
      unfold ep_strikethrough. repeat (apply gv_then; [apply stable_any|now apply mv_lift|intro]).
      eapply (gv_map _ _ _ (alls ni)); [now apply gv_nested|]. intros c w X. split; [eexists; reflexivity|exact X].
    Qed.
    Lemma gv_inline : gi (ep_inline E r).
    Proof.
      pose proof (mv_inline rel rrefl rtrans E HE r Mr) as _.
      destruct HE as (_ & (? & ? & ? & ? & ? & ? & ? & ? & ? & ?) & _).
      assert (Ml : forall A (p : parser A), moves (lift p)) by (intros; now apply mv_lift).
      unfold ep_inline. apply gv_alt; [apply stable_any|].
      repeat apply Forall_cons; try apply Forall_nil.
      - split; [apply mv_cond; auto|]. eapply gv_cond_i; try exact Hauto; auto. apply gv_leaf. intros s x a Q. unfold pmap, bind, ret in Q. destruct (p_autolink s); try discriminate Q. injection Q as <- <-. split; [eexists; reflexivity|reflexivity].
      - split; [apply mv_cond; auto; apply mv_map; auto; now apply mv_link|]. eapply gv_cond_i; try exact Hlink; auto; [apply mv_map; auto; now apply mv_link|]. eapply gv_map; [apply gv_link|]. intros l w X. split; [eexists; reflexivity|exact X].
      - split; [apply mv_cond; auto|]. eapply gv_cond_i; try exact Hfoot; auto. apply gv_leaf. unfold p_footnote_reference. intros s x a Q. unfold pmap, bind, ret in Q. destruct (delimited _ _ _ s); try discriminate Q. injection Q as <- <-. split; [eexists; reflexivity|reflexivity].
      - split; [apply mv_cond; auto; now apply mv_ref|]. eapply gv_cond_i; try exact Href; auto; [now apply mv_ref|apply gv_ref].
      - split; [apply mv_cond; auto|]. eapply gv_cond_i; try exact Hhard; auto. apply gv_leaf. unfold p_hard_newline, value. intros s x a Q. unfold pmap, bind, ret in Q. destruct (alt _ s); try discriminate Q. injection Q as <- <-. split; reflexivity.
      - split; [apply mv_cond; auto|]. eapply gv_cond_i; try exact Himage; auto. apply gv_leaf. unfold p_image. intros s x a Q. unfold bind, ret in Q. destruct (preceded _ _ s); try discriminate Q. destruct (p_link_tail _) as [? [d t]| |]; try discriminate Q. injection Q as <- <-. split; [eexists; reflexivity|reflexivity].
      - split; [apply mv_cond; auto|]. eapply gv_cond_i; try exact Hcode; auto. apply gv_leaf. intros s x a Q. unfold pmap, bind, ret in Q. destruct (p_code_span s); try discriminate Q. injection Q as <- <-. split; [eexists; reflexivity|reflexivity].
      - split; [auto|]. intros s w x a w' _ Q. unfold lift in Q. injection Q as Q <-. unfold pmap, bind, ret in Q. destruct (p_environment_variable s) as [? v| |] eqn:V; try discriminate Q. injection Q as <- <-.
        unfold p_environment_variable, pmap, bind, ret in V. destruct (verify _ _ s); try discriminate V. injection V as _ <-. apply Forall_cons; [|apply Forall_nil]. apply ni_intro; [apply Qtext|apply Forall_nil].
      - split; [apply mv_cond; auto; now apply mv_emphasis|]. eapply gv_cond_i; try exact Hemph; auto; [now apply mv_emphasis|apply gv_emphasis].
      - split; [apply mv_cond; auto; now apply mv_strike|]. eapply gv_cond_i; try exact Hstrike; auto; [now apply mv_strike|apply gv_strike].
      - split; [now apply mv_custom_inline|]. unfold ep_custom_inline. rewrite no_custom_i. apply gv_fail.
      - split; [apply mv_cond; auto; now apply mv_text|]. eapply gv_cond_i; try exact Htext; auto; [now apply mv_text|]. unfold ep_text. eapply gv_map; [apply gv_true|]. intros a w _. split; [eexists; reflexivity|apply Forall_nil].
    Qed.
  End InlSeen.
  Lemma m_inl_f : forall n, moves (einline_many1_f E n). Proof. now apply mv_inlines_f. Qed.
  Lemma m_inl1 : moves (einline_many1 E). Proof. now apply mv_inlines1. Qed.
  Lemma m_inl0 : moves (einline_many0 E). Proof. now apply mv_inlines0. Qed.
  Lemma gv_inl_f : forall n, gi (einline_many1_f E n).
  Proof.
    induction n as [|n IH]; [intros s w r a w' _ Q; discriminate Q|]. cbn [einline_many1_f].
    eapply (gv_map _ _ _ (alls (alls ni))); [|intros ll w X; apply merge_go_all, concat_all, X].
    apply gv_many1; [apply stable_any|apply s_nis|apply mv_inline; auto; apply m_inl_f|]. apply gv_inline; [apply m_inl_f|exact IH].
  Qed.
  Lemma gv_inl1 : gi (einline_many1 E).
  Proof. intros s w r a w' _ Q. unfold einline_many1 in Q. eapply gv_inl_f; [exact I|exact Q]. Qed.
  Lemma gv_inl0 : gi (einline_many0 E).
  Proof.
    intros s w r a w' _ Q. unfold einline_many0 in Q.
    assert (G : gi (emap (fun ll => merge_consecutive_text_elements (concat ll)) (emany0 (ep_inline E (einline_many1_f E (List.length s)))))).
    { eapply (gv_map _ _ _ (alls (alls ni))); [|intros ll v X; apply merge_go_all, concat_all, X].
      apply gv_many0; [apply stable_any|apply s_nis|apply mv_inline; auto; apply m_inl_f|]. apply gv_inline; [apply m_inl_f|apply gv_inl_f]. }
    eapply G; [exact I|exact Q].
  Qed.
  Lemma gv_heading : gives any (fun h w => alls ni (h_content h) w) (ep_heading_v1 E).
  Proof.
    unfold ep_heading_v1. repeat (apply gv_then; [apply stable_any|now apply mv_lift|intro]).
    eapply gv_bind; [apply stable_any|apply mv_nested; auto; apply m_inl0|apply gv_nested, gv_inl0|]. intro c. apply gv_ret. intros w [_ X]. exact X.
  Qed.
  Lemma gv_definition : gives any (fun d w => alls ni (ld_label d) w) (ep_link_definition E).
  Proof.
    unfold ep_link_definition. eapply gv_bind; [apply stable_any| |apply gv_preceded; [apply stable_any|now apply mv_lift|apply gv_label; [apply m_inl1|apply gv_inl1]]|].
    - apply mv_preceded; auto; [now apply mv_lift|]. apply m_label, m_inl1.
    - intro l. assert (SP : stable (fun w => True /\ alls ni l w)) by (intros w w' R [_ X]; split; [exact I|eapply s_nis; eassumption]).
      repeat (apply gv_then; [exact SP|now apply mv_lift|intro]). apply gv_ret. intros w [_ X]. exact X.
  Qed.
  Lemma m_row : moves (ep_table_row E).
  Proof.
    assert (Ml : forall A (p : parser A), moves (lift p)) by (intros; now apply mv_lift).
    unfold ep_table_row. apply mv_line; auto. apply mv_preceded; auto. apply mv_delimited; auto. apply mv_sep1; auto.
    unfold ep_cell_content. apply mv_bind; auto. intro. apply mv_nested; auto. apply m_inl0.
  Qed.
  Lemma s_rows : forall x, stable (alls (alls ni) x). Proof. apply stable_alls, s_nis. Qed.
  Lemma gv_row : gives any (alls (alls ni)) (ep_table_row E).
  Proof.
    assert (Ml : forall A (p : parser A), moves (lift p)) by (intros; now apply mv_lift).
    assert (Mc : moves (ep_cell_content E)) by (unfold ep_cell_content; apply mv_bind; auto; intro; apply mv_nested; auto; apply m_inl0).
    assert (Ms : moves (eseparated_list1 (lift (chr "|")) (ep_cell_content E))) by (apply mv_sep1; auto).
    unfold ep_table_row, eline_terminated. apply gv_terminated; [apply stable_any|apply s_rows|apply mv_preceded; auto; apply mv_delimited; auto|auto|].
    apply gv_preceded; [apply stable_any|auto|]. apply gv_delimited; [apply stable_any|apply s_rows|auto|exact Ms|auto|].
    apply gv_sep1; [apply stable_any|apply s_nis|auto|exact Mc|]. unfold ep_cell_content. apply gv_then; [apply stable_any|auto|]. intro. apply gv_nested, gv_inl0.
  Qed.
  Lemma resize_all : forall n x w, alls (alls ni) x w -> alls (alls ni) (resize_row n x) w.
  Proof.
    intros n x w H. unfold resize_row. apply Forall_app. split; [rewrite <- (firstn_skipn n x) in H; apply Forall_app in H; exact (proj1 H)|]. apply Forall_forall. intros c J. apply repeat_spec in J. subst c.
    apply Forall_cons; [|apply Forall_nil]. apply ni_intro; [apply Qtext|apply Forall_nil].
  Qed.
  Lemma gv_table : gives any (fun t w => alls ni (concat (concat (t_rows t))) w) (ep_table E).
  Proof.
    unfold ep_table. eapply gv_bind; [apply stable_any|apply m_row|apply gv_row|]. intro h.
    assert (SP : stable (fun w => True /\ alls (alls ni) h w)) by (intros w w' R [_ X]; split; [exact I|eapply s_rows; eassumption]).
    apply gv_then; [exact SP|now apply mv_lift|]. intro al. destruct (negb _); [apply gv_fail|].
    eapply (gv_bind _ _ _ (alls (alls (alls ni)))); [exact SP|apply mv_many0; auto; apply mv_map; auto; apply m_row| |].
    - apply gv_many0; [exact SP|apply s_rows|apply mv_map; auto; apply m_row|]. eapply (gv_map _ _ _ (alls (alls ni))); [|intros a w X; now apply resize_all].
      eapply gv_conseq; [| |apply gv_row]; [intros; exact I|intros a w X; exact X].
    - intro rows. apply gv_ret. intros w [[_ X] Y]. cbn [t_rows]. apply concat_all, concat_all. now apply Forall_cons.
  Qed.
  Section BlkSeen.
    Variable r : eparser W (list block).
    Hypothesis Mr : moves r.
    Hypothesis Hr : gb r.
    Let Ml : forall A (p : parser A), moves (lift p). Proof. intros. now apply mv_lift. Qed.
    Lemma gv_blocks1 : forall c, gb (emap (@concat _) (enested (emany1 r) c)).
    Proof. intro c. eapply (gv_map _ _ _ (alls (alls nb))); [|intros a w X; apply concat_all, X]. apply gv_nested, gv_many1; [apply stable_any|apply s_nbs|exact Mr|exact Hr]. Qed.
    Lemma gv_blocks0 : forall c, gb (emap (@concat _) (enested (emany0 r) c)).
    Proof. intro c. eapply (gv_map _ _ _ (alls (alls nb))); [|intros a w X; apply concat_all, X]. apply gv_nested, gv_many0; [apply stable_any|apply s_nbs|exact Mr|exact Hr]. Qed.
    Lemma m_blocks1 : forall c, moves (emap (@concat _) (enested (emany1 r) c)).
    Proof. intro c. apply mv_map; auto. apply mv_nested; auto. now apply mv_many1. Qed.
    Lemma m_blocks0 : forall c, moves (emap (@concat _) (enested (emany0 r) c)).
    Proof. intro c. apply mv_map; auto. apply mv_nested; auto. now apply mv_many0. Qed.
    Lemma gv_quote : gb (ep_blockquote r).
    Proof. unfold ep_blockquote. apply gv_then; [apply stable_any|auto|]. intro. apply gv_blocks1. Qed.
    Lemma gv_alert : gb (ep_github_alert E r).
    Proof.
      unfold ep_github_alert. apply gv_then; [apply stable_any|auto|]. intro l. destruct (parse_alert_marker _ _) as [ty|]; [|apply gv_fail].
      apply gv_then; [apply stable_any|auto|]. intro ls. eapply (gv_bind _ _ _ (alls nb)); [apply stable_any| | |].
      - destruct (join _ _); [apply Ml|apply m_blocks1].
      - destruct (join _ _); [apply gv_ret; intros; apply Forall_nil|apply gv_blocks1].
      - intro bs. apply gv_ret. intros w [_ X]. apply Forall_cons; [|apply Forall_nil]. apply nb_intro; [apply Qalert|apply Forall_nil|exact X].
    Qed.
    Lemma gv_item : gives any (fun x w => alls nb (li_blocks (snd x)) w) (ep_list_item r).
    Proof.
      unfold ep_list_item. apply gv_then; [apply stable_any|auto|]. intros [[k t] c]. eapply (gv_bind _ _ _ (alls nb)); [apply stable_any|apply m_blocks0|apply gv_blocks0|].
      intro bs. apply gv_ret. intros w [_ X]. exact X.
    Qed.
    Lemma gv_list : gives any (fun l w => alls nb (flat_map li_blocks (l_items l)) w) (ep_list r).
    Proof.
      unfold ep_list. eapply (gv_bind _ _ _ (alls (fun x w => alls nb (li_blocks (snd x)) w))); [apply stable_any| | |].
      - apply mv_many1; auto. now apply mv_item.
      - apply gv_many1; [apply stable_any|intro; apply s_nbs|now apply mv_item|apply gv_item].
      - intros [|[k i] l]; [apply gv_fail|]. apply gv_ret. intros w [_ X]. cbn [l_items]. apply Forall_flat_map. apply Forall_map. exact X.
    Qed.
    Lemma gv_footnote : gives any (fun f w => alls nb (fd_blocks f) w) (ep_footnote_definition r).
    Proof.
      unfold ep_footnote_definition. apply gv_then; [apply stable_any|auto|]. intros [l c]. eapply (gv_bind _ _ _ (alls nb)); [apply stable_any|apply m_blocks0|apply gv_blocks0|].
      intro bs. apply gv_ret. intros w [_ X]. exact X.
    Qed.
    Lemma m_paragraph : forall b, moves (ep_paragraph E r b). Proof. intro b. now apply mv_paragraph. Qed.
    Lemma gv_paragraph : forall b, gi (ep_paragraph E r b).
    Proof.
      intro b. unfold ep_paragraph. apply gv_then; [apply stable_any|auto|]. intro l. apply gv_then; [apply stable_any| |].
      - apply mv_line; auto. apply mv_sep0; auto. apply mv_preceded; auto. now apply mv_start.
      - intro rl. apply gv_nested, gv_inl1.
    Qed.
    Lemma gv_heading2 : gives any (fun x w => ((exists h, x = BHeading h) \/ (exists l, x = BParagraph l)) /\ alls ni (block_inlines x) w /\ alls nb (block_children x) w) (ep_heading_v2_or_paragraph E r).
    Proof.
      unfold ep_heading_v2_or_paragraph. eapply gv_bind; [apply stable_any|apply m_paragraph|apply gv_paragraph|]. intro c.
      apply gv_then; [intros w w' R [_ X]; split; [exact I|eapply s_nis; eassumption]|auto|]. intro lv. apply gv_ret. intros w [_ X].
      destruct lv; split; try (left; eexists; reflexivity); try (right; eexists; reflexivity); (split; [exact X|apply Forall_nil]).
    Qed.
    Lemma gv_leaf_b : forall A (f : A -> block) (p : parser A), (forall a, block_inlines (f a) = [] /\ block_children (f a) = []) ->
      gives any (fun x w => (exists l, x = f l) /\ alls ni (block_inlines x) w /\ alls nb (block_children x) w) (lift (pmap f p)).
    Proof.
      intros A f p H s w x a w' _ Q. unfold lift in Q. injection Q as Q <-. unfold pmap, bind, ret in Q. destruct (p s); try discriminate Q. injection Q as _ <-.
      destruct (H a0) as [X Y]. rewrite X, Y. split; [eexists; reflexivity|]. split; apply Forall_nil.
    Qed.
    Lemma gv_block : gb (ep_block E r).
    Proof.
      destruct HE as ((? & ? & ? & ? & ? & ? & ? & ? & ? & ? & ? & ?) & _ & _).
      unfold ep_block. apply gv_preceded; [apply stable_any|auto|]. apply gv_alt; [apply stable_any|].
      repeat apply Forall_cons; try apply Forall_nil.
      - split; [apply mv_cond; auto|]. eapply gv_cond_b; try exact Bcode; auto. apply gv_leaf_b. intro; split; reflexivity.
      - assert (M : moves (emap BHeading (ep_heading_v1 E))) by (apply mv_map; auto; now apply mv_heading).
        split; [apply mv_cond; auto|]. eapply gv_cond_b; try exact Bhead1; auto. eapply gv_map; [apply gv_heading|]. intros h w X. split; [eexists; reflexivity|]. split; [exact X|apply Forall_nil].
      - assert (M : moves (ep_heading_v2_or_paragraph E r)) by now apply mv_heading2.
        split; [apply mv_cond; auto|]. eapply gv_cond_b; try exact Bhead2; auto. apply gv_heading2.
      - split; [apply mv_cond; auto|]. eapply gv_cond_b; try exact Bbreak; auto. intros s w x a w' _ Q. unfold lift in Q. injection Q as Q <-. unfold value, pmap, bind, ret in Q. destruct (p_thematic_break s); try discriminate Q. injection Q as _ <-.
        split; [reflexivity|]. split; apply Forall_nil.
      - assert (M : moves (ep_github_alert E r)) by now apply mv_alert. split; [apply mv_cond_vec; auto|]. destruct (eb_github_alert E); cbn [econditional_block_vec]; try apply gv_fail; try apply gv_alert.
        apply gv_value; [apply stable_any|exact M|]. intros w _. apply Forall_cons; [|apply Forall_nil]. apply nb_intro; [apply Qbempty|apply Forall_nil|apply Forall_nil].
      - assert (M : moves (emap BBlockQuote (ep_blockquote r))) by (apply mv_map; auto; now apply mv_quote).
        split; [apply mv_cond; auto|]. eapply gv_cond_b; try exact Bquote; auto. eapply gv_map; [apply gv_quote|]. intros h w X. split; [eexists; reflexivity|]. split; [apply Forall_nil|exact X].
      - assert (M : moves (emap BList (ep_list r))) by (apply mv_map; auto; now apply mv_list).
        split; [apply mv_cond; auto|]. eapply gv_cond_b; try exact Blist; auto. eapply gv_map; [apply gv_list|]. intros h w X. split; [eexists; reflexivity|]. split; [apply Forall_nil|exact X].
      - split; [apply mv_cond; auto|]. eapply gv_cond_b; try exact Bhtml; auto. apply gv_leaf_b. intro; split; reflexivity.
      - assert (M : moves (emap BFootnoteDefinition (ep_footnote_definition r))) by (apply mv_map; auto; now apply mv_footnote).
        split; [apply mv_cond; auto|]. eapply gv_cond_b; try exact Bfoot; auto. eapply gv_map; [apply gv_footnote|]. intros h w X. split; [eexists; reflexivity|]. split; [apply Forall_nil|exact X].
      - assert (M : moves (emap BDefinition (ep_link_definition E))) by (apply mv_map; auto; now apply mv_definition).
        split; [apply mv_cond; auto|]. eapply gv_cond_b; try exact Bdef; auto. eapply gv_map; [apply gv_definition|]. intros h w X. split; [eexists; reflexivity|]. split; [exact X|apply Forall_nil].
      - assert (M : moves (emap BTable (ep_table E))) by (apply mv_map; auto; now apply mv_table).
        split; [apply mv_cond; auto|]. eapply gv_cond_b; try exact Btable; auto. eapply gv_map; [apply gv_table|]. intros h w X. split; [eexists; reflexivity|]. split; [exact X|apply Forall_nil].
      - split; [now apply mv_custom_block|]. unfold ep_custom_block. rewrite no_custom_b. apply gv_fail.
      - assert (M : moves (emap BParagraph (ep_paragraph E r false))) by (apply mv_map; auto; now apply mv_paragraph).
        split; [apply mv_cond; auto|]. eapply gv_cond_b; try exact Bpar; auto. eapply gv_map; [apply gv_paragraph|]. intros h w X. split; [eexists; reflexivity|]. split; [exact X|apply Forall_nil].
    Qed.
  End BlkSeen.
  Lemma gv_block_f : forall n, gb (eblock_f E n).
  Proof.
    induction n as [|n IH]; [intros s w r a w' _ Q; discriminate Q|]. cbn [eblock_f]. apply gv_block; [now apply mv_block_f|exact IH].
  Qed.
  Lemma gv_parse : forall s w r d w', eparse_markdown E s w = (Ok r d, w') -> alls nb (d_blocks d) w'.
  Proof.
    intros s w r d w' Q. unfold eparse_markdown, ep_document in Q.
    assert (M : forall n, moves (eblock_f E n)) by (intro; now apply mv_block_f).
    refine ((_ : gives any (fun d w => alls nb (d_blocks d) w) _) s w r d w' I Q).
    eapply (gv_map _ _ _ (alls (alls nb))); [|intros a v X; apply concat_all, X].
    apply gv_terminated; [apply stable_any|apply stable_alls, s_nbs|apply mv_many0; auto|now apply mv_lift|].
    apply gv_many0; [apply stable_any|apply s_nbs|apply M|apply gv_block_f].
  Qed.
End Seen.
