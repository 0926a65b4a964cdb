(** Proof of C93: what the parser makes with HTML blocks off. *)
From Coq Require Import String Lia.
From Verif Require Import SpecParser Nom ParserInline ParserInlineFacts ParserBlock ParserTotal SyntaxDoc SpecInline SpecBlock ShapeFacts.
From Verif Require SpecChars CharTree.
Import ListNotations.
Open Scope list_scope.

Section Labels.
  Variable cfg : config.
  Hypothesis Hu : no_user_code cfg.
  (** the names of custom alerts are identifiers *)
  Definition named (b : block) : Prop := forall s bs, b = BGitHubAlert (GitHubAlert (Custom s) bs) -> identifier s.
  Definition all_named (bs : list block) : Prop := Forall named (flat_map block_preorder bs).
  Definition shape_named (h : shape) : Prop := match h with HAlert ty _ => exists name, alert_of_name name ty | _ => True end.
  Lemma named_one : forall b c, block_preorder b = b :: flat_map block_preorder c -> named b -> all_named c -> all_named [b].
  Proof. intros b c E H C. unfold all_named. cbn [flat_map]. rewrite app_nil_r, E. now constructor. Qed.
  Lemma other : forall b, (forall a, b <> BGitHubAlert a) -> named b.
  Proof. intros b H s bs ->. now elim (H (GitHubAlert (Custom s) bs)). Qed.
  Lemma shapes_named : forall s h r, first_of (block_rules cfg) s h r -> shape_named h /\ forall l, h <> HCustom l.
  Proof.
    intros s h r H. apply first_in in H as (R & I & H). unfold block_rules in I. cbn [In] in I.
    destruct Hu as (_ & _ & _ & CB).
    repeat (destruct I as [<-|I]; [unfold on in H; try match type of H with _ /\ _ => destruct H as [? H] end; inversion H; subst;
      try match goal with X : r_fenced _ _ _ |- _ => inversion X; subst end; try congruence; (split; [try exact Logic.I|discriminate])|]); [|destruct I].
    cbn [shape_named]. eauto.
  Qed.
  Lemma named_mut :
    (forall h b, makes cfg h b -> shape_named h -> all_named [b]) /\
    (forall l l', item_blocks cfg l l' -> all_named (flat_map li_blocks l')) /\
    (forall h o, makes_all cfg h o -> (forall l, h <> HCustom l) -> shape_named h -> all_named o) /\
    (forall s bs, blocks cfg s bs -> all_named bs).
  Proof.
    apply block_mut; cbn [shape_named].
    - intros c _. apply (named_one _ []); [reflexivity|apply other; discriminate|constructor].
    - intros k t l _ _. apply (named_one _ []); [reflexivity|apply other; discriminate|constructor].
    - intros t l _ _. apply (named_one _ []); [reflexivity|apply other; discriminate|constructor].
    - intros _. apply (named_one _ []); [reflexivity|apply other; discriminate|constructor].
    - intros ty t bs _ IH (name & AL). apply (named_one _ bs); [reflexivity| |exact IH]. intros s bs' E. injection E as -> _.
      destruct AL as [I|(ID & E & _)]; [|now injection E as ->]. cbn in I. repeat (destruct I as [I|I]; [discriminate|]). destruct I.
    - intros t bs _ IH _. apply (named_one _ bs); [reflexivity|apply other; discriminate|exact IH].
    - intros k items l _ IH _. apply (named_one _ (flat_map li_blocks l)); [|apply other; discriminate|exact IH].
      cbn [block_preorder l_items]. f_equal. clear. induction l as [|x l IH]; [reflexivity|]. cbn [flat_map]. rewrite flat_map_app. now f_equal.
    - intros s _. apply (named_one _ []); [reflexivity|apply other; discriminate|constructor].
    - intros label t bs _ IH _. apply (named_one _ bs); [reflexivity|apply other; discriminate|exact IH].
    - intros label d t l _ _. apply (named_one _ []); [reflexivity|apply other; discriminate|constructor].
    - intros header rows al h l _ _ _. apply (named_one _ []); [reflexivity|apply other; discriminate|constructor].
    - intros t l _ _. apply (named_one _ []); [reflexivity|apply other; discriminate|constructor].
    - constructor.
    - intros t text bs items l _ IH _ IHl. cbn [flat_map li_blocks]. unfold all_named. rewrite flat_map_app. apply Forall_app. now split.
    - intros h b _ IH _ N. pose proof (CharTree.plain_b cfg Hu h) as P. destruct (block_behavior cfg h); cbn [outcome plain_behavior] in *; try contradiction; [now apply IH|constructor|].
      apply (named_one _ []); [reflexivity|apply other; discriminate|constructor].
    - intros l H. now elim (H l).
    - intros s _. constructor.
    - intros s bl m h r o l RP F _ Hm _ IH. destruct (shapes_named _ _ _ F) as [T N]. unfold all_named. rewrite flat_map_app. apply Forall_app. split; [now apply Hm|exact IH].
  Qed.
  Lemma parse_named : forall s d, i_text cfg <> Ignore -> b_paragraph cfg <> Ignore -> parse_markdown cfg s = Ok [] d -> Forall named (doc_blocks d).
  Proof.
    intros s d Ht Hp E. apply parse_markdown_blocks in E; [|exact (CharTree.no_user_ok cfg Hu)|assumption..]. exact (proj2 (proj2 (proj2 named_mut)) _ _ E).
  Qed.
End Labels.
