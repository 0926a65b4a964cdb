(** Proof of C77: the strings of a parsed document are made of its source. *)
From Coq Require Import String Lia.
From Verif Require Import SpecParser Nom ParserInline ParserInlineFacts ParserBlock ParserTotal SyntaxDoc SpecInline SpecBlock SpecChars ShapeFacts CharFacts.
Import ListNotations.
Open Scope list_scope.

Section Tree.
  Variable Q : char -> Prop.
  Notation QS := (Forall Q).
  Hypothesis Qnl : Q c_nl.
  Hypothesis Qsp : Q c_sp.
  Hypothesis Qamp : ~ Q (ch "&").
  Variable cfg : config.
  Hypothesis Hu : no_user_code cfg.
  Lemma no_user_ok : custom_ok cfg.
  Proof. destruct Hu as (_ & _ & E1 & E2). split; congruence. Qed.
  Ltac parts := repeat match goal with
    | H : Forall Q (_ ++ _) |- _ => apply Forall_app in H; destruct H
    | H : Forall Q (_ :: _) |- _ => apply Forall_cons_iff in H; destruct H
    | H : _ /\ _ |- _ => destruct H
    end.
  Ltac q := parts; repeat match goal with
    | |- Forall Q (_ ++ _) => apply Forall_app; split
    | |- Forall Q (_ :: _) => apply Forall_cons
    | |- Forall Q [] => constructor
    | |- _ /\ _ => split
    end; try assumption.
  Lemma q_norm : forall a b, code_norm a b -> QS a -> QS b.
  Proof. intros a b H. induction H; intros; q; apply IHcode_norm; q. Qed.
  Lemma q_content : forall a b, code_content a b -> QS a -> QS b.
  Proof. intros a b (t & N & [[-> _]|[-> _]]) H; apply q_norm in N; q. Qed.
  Lemma q_entity : forall s v r, entity_at (html_entities cfg) s v r -> QS s -> False.
  Proof. intros s v r H HQ. destruct H; cbn [lit app] in HQ; inversion HQ; contradiction. Qed.
  Lemma q_chunk : forall s v r, chunk cfg s v r -> QS s -> QS v.
  Proof.
    intros s v r [E|[[_ E]|[_ [_ [N E]]]]] H; [inversion E; subst; now q|now apply q_entity in E|]. apply (q_run Q) in E as [E _]; assumption.
  Qed.
  Lemma q_chunks : forall s l r, chunks cfg s l r -> QS s -> QS (concat l).
  Proof.
    intros s l r H. induction H as [|s v m l r C _ IH]; intros HQ; [constructor|]. cbn [concat]. pose proof (q_chunk_rest Q cfg _ _ _ C HQ). apply q_chunk in C; [|assumption]. q. now apply IH.
  Qed.
  Lemma q_leaves : forall s p r, first_of (inline_rules cfg) s p r -> QS s -> piece_leaves Q p.
  Proof.
    intros s p r H HQ. apply first_in in H as (R & I & H). unfold inline_rules, element_rules in I. cbn [app In] in I.
    repeat (destruct I as [<-|I]; [unfold on in H; try destruct H as [_ H]|]); try contradiction.
    - destruct H as [s u r [-> _]]. cbn [piece_leaves]. now q.
    - destruct H as [s text m d t r B L]. apply (q_bracket Q) in B as [B1 B2]; [|assumption]. apply (q_tail Q) in L as (L1 & L2 & L); [|assumption]. now split.
    - destruct H. cbn [piece_leaves]. now q.
    - destruct H; exact Logic.I.
    - destruct H; exact Logic.I.
    - destruct H as [a d t m r _ L]. parts. apply (q_tail Q) in L as (L1 & L2 & L); [|assumption]. now repeat split.
    - destruct H as [n raw s c r C N]. apply (q_ticks Q) in C as [C _]; [|assumption]. now apply q_content in N.
    - destruct H. cbn [piece_leaves]. now q.
    - destruct H; exact Logic.I.
    - destruct H; exact Logic.I.
    - destruct H; exact Logic.I.
    - destruct H as [s l r _ C]. now apply q_chunks in C.
  Qed.
  Definition iok (l : list inline) : Prop := Forall (fun i => Forall (Forall Q) (inline_own i)) (flat_map inline_preorder l).
  Lemma iok_app : forall a b, iok a -> iok b -> iok (a ++ b).
  Proof. intros a b A B. unfold iok. rewrite flat_map_app. apply Forall_app. now split. Qed.
  Lemma iok_split : forall a b, iok (a ++ b) -> iok a /\ iok b.
  Proof. intros a b H. unfold iok in H. rewrite flat_map_app in H. now apply Forall_app in H. Qed.
  Lemma iok_one : forall i c, inline_preorder i = i :: flat_map inline_preorder c -> Forall (Forall Q) (inline_own i) -> iok c -> iok [i].
  Proof. intros i c E H C. unfold iok. cbn [flat_map]. rewrite app_nil_r, E. now constructor. Qed.
  Lemma iok_joins : forall l l', joins_to l l' -> iok l -> iok l'.
  Proof.
    intros l l' J. induction J as [|l m n [a s t b] J IH]; intros H; [assumption|]. apply IH.
    apply iok_split in H as [A H]. apply iok_app; [assumption|]. unfold iok in *. cbn [flat_map inline_preorder app] in *. inversion H as [|? ? H1 H']; subst. inversion H' as [|? ? H2 H3]; subst.
    constructor; [|assumption]. cbn [inline_own] in *. inversion H1; subst. inversion H2; subst. constructor; [now q|constructor].
  Qed.
  Lemma plain_i : forall p, plain_behavior (behavior_of cfg p).
  Proof.
    intros p. destruct Hu as (A & _). repeat (apply Forall_cons_iff in A; destruct A as [? A]). destruct p; cbn [behavior_of]; try assumption; exact Logic.I.
  Qed.
  Lemma maybe_ok : forall o, QO Q o -> Forall (Forall Q) (maybe o).
  Proof. intros [s|] H; repeat constructor. exact H. Qed.
  Lemma inline_chars :
    (forall p i, builds cfg p i -> piece_texts Q p -> piece_leaves Q p -> iok [i]) /\
    (forall p o, yields cfg p o -> (forall l, p <> PCustom l) -> piece_texts Q p -> piece_leaves Q p -> iok o) /\
    (forall s l, pieces cfg s l -> QS s -> iok l) /\
    (forall s l, reads cfg s l -> QS s -> iok l).
  Proof.
    apply inline_mut.
    - intros u _ H. apply (iok_one _ []); [reflexivity|repeat constructor; exact H|constructor].
    - intros text d t c _ IH T [D O]. apply (iok_one _ c); [reflexivity|cbn [inline_own]; constructor; [exact D|now apply maybe_ok]|now apply IH].
    - intros l _ H. apply (iok_one _ []); [reflexivity|repeat constructor; exact H|constructor].
    - intros text label a b _ IA _ IB [T L] _. apply (iok_one _ (b ++ a)); [cbn [inline_preorder lr_label lr_text]; now rewrite flat_map_app|constructor|apply iok_app; auto].
    - intros text a _ IA [T _] _. apply (iok_one _ (a ++ a)); [cbn [inline_preorder lr_label lr_text]; now rewrite flat_map_app|constructor|apply iok_app; auto].
    - intros _ _. apply (iok_one _ []); [reflexivity|constructor|constructor].
    - intros d t a _ (D & O & A). apply (iok_one _ []); [reflexivity|cbn [inline_own]; constructor; [exact D|constructor; [exact A|now apply maybe_ok]]|constructor].
    - intros u _ H. apply (iok_one _ []); [reflexivity|repeat constructor; exact H|constructor].
    - intros u _ H. apply (iok_one _ []); [reflexivity|repeat constructor; exact H|constructor].
    - intros text c _ IH T _. apply (iok_one _ c); [reflexivity|constructor|now apply IH].
    - intros text c _ IH T _. apply (iok_one _ c); [reflexivity|constructor|now apply IH].
    - intros text c _ IH T _. apply (iok_one _ [IEmphasis c]); [reflexivity|constructor|]. apply (iok_one _ c); [reflexivity|constructor|now apply IH].
    - intros text c _ IH T _. apply (iok_one _ c); [reflexivity|constructor|now apply IH].
    - intros u _ H. apply (iok_one _ []); [reflexivity|repeat constructor; exact H|constructor].
    - intros p i _ IH _ T L. pose proof (plain_i p) as P. destruct (behavior_of cfg p); cbn [outcome plain_behavior] in *; try contradiction; [now apply IH| |]; repeat constructor.
    - intros l H. now elim (H l).
    - intros _. constructor.
    - intros s p r o l F _ Hy _ IH HQ. pose proof (q_piece Q cfg no_user_ok _ _ _ F HQ) as [T T']. pose proof (q_leaves _ _ _ F HQ) as L.
      apply iok_app; [|now apply IH]. apply Hy; try assumption. intros x ->. apply first_in in F as (R & J & F). unfold inline_rules, element_rules in J. cbn [app In] in J.
      repeat (destruct J as [<-|J]; [unfold on in F; try destruct F as [_ F]; inversion F; subst|]); try contradiction.
      destruct Hu as (_ & _ & E & _). congruence.
    - intros s l l' _ IH J _ HQ. eapply iok_joins; eauto.
  Qed.
  Lemma reads_chars : forall s l, reads cfg s l -> QS s -> iok l.
  Proof. apply inline_chars. Qed.
  Definition bok (bs : list block) : Prop :=
    Forall (fun b => Forall (Forall Q) (block_own b) /\ iok (block_inlines b)) (flat_map block_preorder bs).
  Lemma bok_one : forall b c, block_preorder b = b :: flat_map block_preorder c -> Forall (Forall Q) (block_own b) -> iok (block_inlines b) -> bok c -> bok [b].
  Proof. intros b c E H I C. unfold bok. cbn [flat_map]. rewrite app_nil_r, E. constructor; [now split|assumption]. Qed.
  Lemma plain_b : forall h, plain_behavior (block_behavior cfg h).
  Proof.
    intros h. destruct Hu as (_ & A & _). repeat (apply Forall_cons_iff in A; destruct A as [? A]). destruct h as [|[]| | | | | | | | | | |]; cbn [block_behavior]; try assumption; try exact Logic.I.
    destruct (b_github_alert cfg); exact Logic.I.
  Qed.
  Lemma row_chars : forall n l c, row_cells cfg n l c -> Forall (Forall Q) l -> iok (concat c).
  Proof.
    intros n l c H. induction H as [|n c _ IH|n t u i l c T RD _ IH]; intros HQ; cbn [concat]; [constructor| |].
    - apply iok_app; [|now apply IH]. repeat constructor.
    - inversion HQ; subst. apply iok_app; [|now apply IH]. apply reads_chars in RD; [assumption|]. eapply (q_trimmed Q); eassumption.
  Qed.
  Lemma block_chars :
    (forall h b, makes cfg h b -> shape_texts Q h -> shape_leaves Q h -> bok [b]) /\
    (forall l l', item_blocks cfg l l' -> Forall (fun x => QS (snd x)) l -> bok (flat_map li_blocks l')) /\
    (forall h o, makes_all cfg h o -> (forall l, h <> HCustom l) -> shape_texts Q h -> shape_leaves Q h -> bok o) /\
    (forall s bs, blocks cfg s bs -> QS s -> bok bs).
  Proof.
    assert (N : iok []) by constructor.
    apply block_mut.
    - intros [k t] _ [T I]. apply (bok_one _ []); [reflexivity| |exact N|constructor]. cbn [block_own]. constructor; [exact T|]. destruct k; [constructor|now apply maybe_ok].
    - intros k t l RD T _. apply (bok_one _ []); [reflexivity|constructor|now apply reads_chars in RD|constructor].
    - intros t l RD T _. apply (bok_one _ []); [reflexivity|constructor|now apply reads_chars in RD|constructor].
    - intros _ _. apply (bok_one _ []); [reflexivity|constructor|exact N|constructor].
    - intros ty t bs _ IH T _. apply (bok_one _ bs); [reflexivity|constructor|exact N|now apply IH].
    - intros t bs _ IH T _. apply (bok_one _ bs); [reflexivity|constructor|exact N|now apply IH].
    - intros k items l _ IH T _. apply (bok_one _ (flat_map li_blocks l)); [|constructor|exact N|now apply IH].
      cbn [block_preorder l_items]. f_equal. clear. induction l as [|x l IH]; [reflexivity|]. cbn [flat_map]. rewrite flat_map_app. now f_equal.
    - intros s _ H. apply (bok_one _ []); [reflexivity|repeat constructor; exact H|exact N|constructor].
    - intros label t bs _ IH T L. apply (bok_one _ bs); [reflexivity|repeat constructor; exact L|exact N|now apply IH].
    - intros label d t l RD T [D O]. apply (bok_one _ []); [reflexivity|cbn [block_own]; constructor; [exact D|now apply maybe_ok]|now apply reads_chars in RD|constructor].
    - intros header rows al h l RH RL [H1 H2] _. apply (bok_one _ []); [reflexivity|constructor| |constructor].
      cbn [block_inlines t_rows concat]. rewrite concat_app. apply iok_app; [eapply row_chars; eassumption|].
      clear RH H1. induction RL as [|x y xs ys RX _ IH]; [constructor|]. inversion H2; subst. cbn [concat]. rewrite concat_app. apply iok_app; [eapply row_chars; eassumption|now apply IH].
    - intros t l RD T _. apply (bok_one _ []); [reflexivity|constructor|now apply reads_chars in RD|constructor].
    - intros _. constructor.
    - intros t text bs items l _ IH _ IHl T. inversion T; subst. cbn [flat_map li_blocks]. unfold bok. rewrite flat_map_app. apply Forall_app. split; [now apply IH|now apply IHl].
    - intros h b _ IH _ T L. pose proof (plain_b h) as P. destruct (block_behavior cfg h); cbn [outcome plain_behavior] in *; try contradiction; [now apply IH|constructor|]. apply (bok_one _ []); [reflexivity|constructor|exact N|constructor].
    - intros l H. now elim (H l).
    - intros s _ _. constructor.
    - intros s bl m h r o l RP F _ Hm _ IH HQ. apply (q_blanks Q) in RP; [|assumption]. pose proof (q_shape Q Qnl cfg no_user_ok _ _ _ F RP) as (T & L & T').
      unfold bok. rewrite flat_map_app. apply Forall_app. split; [|now apply IH]. apply Hm; try assumption.
      intros x ->. apply first_in in F as (R & J & F). unfold block_rules in J. cbn [In] in J.
      repeat (destruct J as [<-|J]; [unfold on in F; try destruct F as [_ F]; inversion F; subst|]); try contradiction.
      all: try (match goal with X : r_fenced _ _ _ |- _ => inversion X end). destruct Hu as (_ & _ & _ & E). congruence.
  Qed.
  Lemma strings_ok : forall d, bok (d_blocks d) -> Forall (Forall Q) (doc_strings d).
  Proof.
    intros d H. unfold doc_strings, doc_inlines, doc_blocks. unfold bok in H. apply Forall_app. split.
    - apply Forall_flat_map. eapply Forall_impl; [|exact H]. now intros b [A _].
    - apply Forall_flat_map. apply Forall_flat_map. eapply Forall_impl; [|exact H]. now intros b [_ A].
  Qed.
End Tree.
