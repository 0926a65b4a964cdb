From Verif Require Export SpecAst.

Section GInlineInd.
  Context {T : Type}.
  Variable P : ginline T -> Prop.
  Hypothesis HText : forall s d, P (GIText s d).
  Hypothesis HLineBreak : forall d, P (GILineBreak d).
  Hypothesis HCode : forall s d, P (GICode s d).
  Hypothesis HHtml : forall s d, P (GIHtml s d).
  Hypothesis HLink : forall u t c d, Forall P c -> P (GILink (GLink u t c d)).
  Hypothesis HLinkReference : forall l t d, Forall P l -> Forall P t ->
      P (GILinkReference (GLinkReference l t d)).
  Hypothesis HImage : forall im, P (GIImage im).
  Hypothesis HEmphasis : forall c d, Forall P c -> P (GIEmphasis c d).
  Hypothesis HStrong : forall c d, Forall P c -> P (GIStrong c d).
  Hypothesis HStrikethrough : forall c d, Forall P c -> P (GIStrikethrough c d).
  Hypothesis HAutolink : forall s d, P (GIAutolink s d).
  Hypothesis HFootnoteReference : forall s d, P (GIFootnoteReference s d).
  Hypothesis HEmpty : forall d, P (GIEmpty d).
  Fixpoint ginline_ind' (i : ginline T) : P i :=
    let go := fix go (l : list (ginline T)) : Forall P l :=
      match l with
      | [] => Forall_nil P
      | x :: l' => Forall_cons x (ginline_ind' x) (go l')
      end in
    match i with
    | GIText s d => HText s d
    | GILineBreak d => HLineBreak d
    | GICode s d => HCode s d
    | GIHtml s d => HHtml s d
    | GILink (GLink u t c d) => HLink u t c d (go c)
    | GILinkReference (GLinkReference l t d) => HLinkReference l t d (go l) (go t)
    | GIImage im => HImage im
    | GIEmphasis c d => HEmphasis c d (go c)
    | GIStrong c d => HStrong c d (go c)
    | GIStrikethrough c d => HStrikethrough c d (go c)
    | GIAutolink s d => HAutolink s d
    | GIFootnoteReference s d => HFootnoteReference s d
    | GIEmpty d => HEmpty d
    end.
End GInlineInd.

Section GBlockInd.
  Context {T : Type}.
  Variable P : gblock T -> Prop.
  Hypothesis HParagraph : forall c d, P (GBParagraph c d).
  Hypothesis HHeading : forall h, P (GBHeading h).
  Hypothesis HThematicBreak : forall d, P (GBThematicBreak d).
  Hypothesis HBlockQuote : forall bs d, Forall P bs -> P (GBBlockQuote bs d).
  Hypothesis HList : forall k items d,
      Forall (fun it => Forall P (gli_blocks it)) items -> P (GBList (GMkList k items d)).
  Hypothesis HCodeBlock : forall c, P (GBCodeBlock c).
  Hypothesis HHtmlBlock : forall s d, P (GBHtmlBlock s d).
  Hypothesis HDefinition : forall d, P (GBDefinition d).
  Hypothesis HTable : forall t, P (GBTable t).
  Hypothesis HFootnoteDefinition : forall l bs d, Forall P bs ->
      P (GBFootnoteDefinition (GFootnoteDefinition l bs d)).
  Hypothesis HGitHubAlert : forall t bs d, Forall P bs -> P (GBGitHubAlert (GGitHubAlert t bs d)).
  Hypothesis HEmpty : forall d, P (GBEmpty d).
  Fixpoint gblock_ind' (b : gblock T) : P b :=
    let go := fix go (l : list (gblock T)) : Forall P l :=
      match l with
      | [] => Forall_nil P
      | x :: l' => Forall_cons x (gblock_ind' x) (go l')
      end in
    let go_items := fix go_items (l : list (glist_item T)) :
          Forall (fun it => Forall P (gli_blocks it)) l :=
      match l with
      | [] => Forall_nil _
      | GListItem t bs d :: l' =>
          Forall_cons (P := fun it => Forall P (gli_blocks it)) (GListItem t bs d) (go bs) (go_items l')
      end in
    match b with
    | GBParagraph c d => HParagraph c d
    | GBHeading h => HHeading h
    | GBThematicBreak d => HThematicBreak d
    | GBBlockQuote bs d => HBlockQuote bs d (go bs)
    | GBList (GMkList k items d) => HList k items d (go_items items)
    | GBCodeBlock c => HCodeBlock c
    | GBHtmlBlock s d => HHtmlBlock s d
    | GBDefinition d => HDefinition d
    | GBTable t => HTable t
    | GBFootnoteDefinition (GFootnoteDefinition l bs d) => HFootnoteDefinition l bs d (go bs)
    | GBGitHubAlert (GGitHubAlert t bs d) => HGitHubAlert t bs d (go bs)
    | GBEmpty d => HEmpty d
    end.
End GBlockInd.

Lemma Forall_all {A} (P : A -> Prop) (H : forall x, P x) l : Forall P l.
Proof. induction l; constructor; auto. Qed.

Lemma map_id_Forall {A} (f : A -> A) l : Forall (fun x => f x = x) l -> map f l = l.
Proof. induction 1; simpl; congruence. Qed.

Arguments with_data_inlines : simpl never.

(** ** C01 *)
Section C01.
  Context {T : Type} (dflt : T).
  Lemma strip_with_inline i : forall data, strip_inline (with_data_inline dflt i data) = i.
  Proof.
    induction i using inline_ind'; intros data; cbn; try reflexivity;
      repeat (rewrite map_map, map_id_Forall;
              [| eapply Forall_impl; [| eassumption]; intros a Ha; apply Ha ]); try reflexivity.
    now destruct im.
  Qed.
  Lemma strip_with_inlines l : map strip_inline (with_data_inlines dflt l) = l.
  Proof.
    unfold with_data_inlines. rewrite map_map. apply map_id_Forall, Forall_all.
    intros x; apply strip_with_inline.
  Qed.
  Lemma from_to_kind k : from_glist_kind (to_glist_kind k) = k.
  Proof. now destruct k. Qed.
  Lemma strip_with_block b : forall data, strip_block (with_data_block dflt b data) = b.
  Proof.
    induction b using block_ind'; intros data; cbn; rewrite ?strip_with_inlines, ?from_to_kind;
      try reflexivity.
    - now destruct h.
    - rewrite map_map, map_id_Forall; [reflexivity|].
      eapply Forall_impl; [| eassumption]; intros a Ha; apply Ha.
    - rewrite map_map, map_id_Forall; [reflexivity|].
      eapply Forall_impl; [| eassumption]. intros [tk bs] Ha; cbn in *. f_equal.
      rewrite map_map. apply map_id_Forall.
      eapply Forall_impl; [| eassumption]; intros a Ha'; apply Ha'.
    - now destruct c.
    - now destruct d.
    - destruct t as [rows al]; cbn. do 2 f_equal. rewrite map_map. apply map_id_Forall, Forall_all.
      intros row. rewrite map_map. apply map_id_Forall, Forall_all. intros c.
      apply strip_with_inlines.
    - rewrite map_map, map_id_Forall; [reflexivity|].
      eapply Forall_impl; [| eassumption]; intros a Ha; apply Ha.
    - rewrite map_map, map_id_Forall; [reflexivity|].
      eapply Forall_impl; [| eassumption]; intros a Ha; apply Ha.
  Qed.
  Lemma strip_with d data : strip_data (with_data dflt d data) = d.
  Proof.
    destruct d as [bs]; unfold strip_data, with_data; cbn. f_equal.
    rewrite map_map. apply map_id_Forall, Forall_all. intros b; apply strip_with_block.
  Qed.
End C01.

Lemma with_strip_inline (i : ginline unit) : forall u, with_data_inline tt (strip_inline i) u = i.
Proof.
  induction i using ginline_ind'; intros u'; destruct u'; cbn;
    repeat match goal with x : unit |- _ => destruct x end; try reflexivity;
    repeat (rewrite map_map, map_id_Forall;
              [| eapply Forall_impl; [| eassumption]; intros a Ha; apply Ha ]); try reflexivity.
  destruct im as [? ? ? []]; reflexivity.
Qed.
Lemma with_strip_inlines (l : list (ginline unit)) : with_data_inlines tt (map strip_inline l) = l.
Proof.
  unfold with_data_inlines. rewrite map_map. apply map_id_Forall, Forall_all.
  intros x; apply with_strip_inline.
Qed.
Lemma with_strip_block (b : gblock unit) : forall u, with_data_block tt (strip_block b) u = b.
Proof.
  induction b using gblock_ind'; intros u'; destruct u'; cbn; rewrite ?with_strip_inlines;
    repeat match goal with x : unit |- _ => destruct x end; try reflexivity.
  - now destruct h as [? ? []].
  - rewrite map_map, map_id_Forall; [reflexivity|].
    eapply Forall_impl; [| eassumption]; intros a Ha; apply Ha.
  - do 2 f_equal; [now destruct k|]. rewrite map_map. apply map_id_Forall.
    eapply Forall_impl; [| eassumption]. intros [tk bs []] Ha; cbn in *. f_equal.
    rewrite map_map. apply map_id_Forall.
    eapply Forall_impl; [| eassumption]; intros a Ha'; apply Ha'.
  - now destruct c as [? ? []].
  - now destruct d as [? ? ? []].
  - destruct t as [rows al []]; cbn. do 2 f_equal. rewrite map_map. apply map_id_Forall, Forall_all.
    intros row. rewrite map_map. apply map_id_Forall, Forall_all. intros c.
    apply with_strip_inlines.
  - rewrite map_map, map_id_Forall; [reflexivity|].
    eapply Forall_impl; [| eassumption]; intros a Ha; apply Ha.
  - rewrite map_map, map_id_Forall; [reflexivity|].
    eapply Forall_impl; [| eassumption]; intros a Ha; apply Ha.
Qed.
Lemma to_from_generic (d : gdocument unit) : to_generic (from_generic d) = d.
Proof.
  destruct d as [bs []]. unfold to_generic, from_generic, with_default_data, with_data, strip_data.
  cbn. f_equal. rewrite map_map. apply map_id_Forall, Forall_all. intros b; apply with_strip_block.
Qed.

(** ** C03 *)
Lemma call_all_app {S T U} (f : T -> S -> option (U * S)) a b s :
  call_all f (a ++ b) s =
  match call_all f a s with
  | None => None
  | Some (ua, s1) => match call_all f b s1 with
                     | None => None
                     | Some (ub, s2) => Some (ua ++ ub, s2) end
  end.
Proof.
  revert s; induction a as [|x a IH]; intros s; cbn.
  - destruct (call_all f b s) as [[]|]; reflexivity.
  - destruct (f x s) as [[u s1]|]; [|reflexivity]. rewrite IH.
    destruct (call_all f a s1) as [[ua s2]|]; [|reflexivity].
    destruct (call_all f b s2) as [[ub s3]|]; reflexivity.
Qed.

Section C03.
  Context {S T U : Type} (f : T -> PM S U).

  (** [m] maps [x], visiting data [dx], to something with stripped form [sx]. *)
  Definition visits {X Y Z} (m : X -> PM S Y) (dX : X -> list T) (dY : Y -> list U)
    (sX : X -> Z) (sY : Y -> Z) (x : X) : Prop :=
    forall s, match m x s with
              | Some (y, s') => call_all f (dX x) s = Some (dY y, s') /\ sY y = sX x
              | None => call_all f (dX x) s = None
              end.

  Lemma visits_list {X Y Z} (m : X -> PM S Y) dX dY (sX : X -> Z) sY l :
    Forall (visits m dX dY sX sY) l ->
    visits (pmapM m) (flat_map dX) (flat_map dY) (map sX) (map sY) l.
  Proof.
    induction 1 as [|x l Hx _ IH]; intros s; cbn; [auto|].
    unfold pbind, pret. specialize (Hx s). rewrite call_all_app.
    destruct (m x s) as [[y s1]|]; [|now rewrite Hx].
    destruct Hx as [-> Hx]. specialize (IH s1).
    destruct (pmapM m l s1) as [[ys s2]|]; [|now rewrite IH].
    destruct IH as [-> IH]. split; [reflexivity|]. cbn. congruence.
  Qed.

  Ltac one :=
    match goal with
    | |- context [call_all f (_ ++ _) _] => rewrite call_all_app
    | H : visits ?m _ _ _ _ ?x |- context [?m ?x ?s] =>
        let E := fresh in pose proof (H s) as E; destruct (m x s) as [[? ?]|];
        [destruct E as [-> E]|rewrite E; reflexivity]
    | |- context [f ?d ?s] => cbn [call_all]; destruct (f d s) as [[? ?]|]; [|reflexivity]
    end.
  Ltac go := let st := fresh "st" in intros st; cbn; unfold pbind, pret; repeat one; cbn; unfold pret; try split; try reflexivity; try congruence.

  Lemma md_inline_visits (i : ginline T) :
    visits (md_inline f) data_inline data_inline strip_inline strip_inline i.
  Proof.
    induction i using ginline_ind';
      repeat match goal with H : Forall _ _ |- _ => apply visits_list in H end; go.
  Qed.
  Lemma md_inlines_visits (l : list (ginline T)) :
    visits (pmapM (md_inline f)) (flat_map data_inline) (flat_map data_inline)
      (map strip_inline) (map strip_inline) l.
  Proof. apply visits_list, Forall_all, md_inline_visits. Qed.

  Lemma md_block_visits (b : gblock T) :
    visits (md_block f) data_block data_block strip_block strip_block b.
  Proof.
    induction b using gblock_ind'.
    - pose proof (md_inlines_visits c). go.
    - pose proof (md_inlines_visits (gh_content h)). go.
    - go.
    - apply visits_list in H. go.
    - set (m := fun it => pbind (pmapM (md_block f) (gli_blocks it)) (fun bs =>
             pbind (f (gli_data it)) (fun d => pret (GListItem (gli_task it) bs d)))).
      assert (HH : visits (pmapM m)
                (flat_map (fun it => flat_map data_block (gli_blocks it) ++ [gli_data it]))
                (flat_map (fun it => flat_map data_block (gli_blocks it) ++ [gli_data it]))
                (map (fun it => ListItem (gli_task it) (map strip_block (gli_blocks it))))
                (map (fun it => ListItem (gli_task it) (map strip_block (gli_blocks it)))) items).
      { apply visits_list. eapply Forall_impl; [|exact H].
        intros it Hit. apply visits_list in Hit. unfold m. go. }
      intros s; cbn. unfold pbind at 1. fold m. rewrite call_all_app.
      pose proof (HH s) as E. destruct (pmapM m items s) as [[ys s1]|]; [|now rewrite E].
      destruct E as [-> E]. unfold pbind, pret. cbn. destruct (f d s1) as [[u s2]|]; [|reflexivity].
      split; [reflexivity|]. cbn. now rewrite E.
    - go.
    - go.
    - pose proof (md_inlines_visits (gld_label d)). go.
    - pose proof (visits_list _ _ _ _ _ (gt_rows t) (Forall_all _ (fun r =>
         visits_list _ _ _ _ _ r (Forall_all _ md_inlines_visits r)) (gt_rows t))) as HH. go.
    - apply visits_list in H. go.
    - apply visits_list in H. go.
    - go.
  Qed.

  Lemma md_document_visits (d : gdocument T) :
    visits (md_document f) data_document data_document strip_data strip_data d.
  Proof.
    pose proof (visits_list _ _ _ _ _ (gd_blocks d) (Forall_all _ md_block_visits (gd_blocks d))) as HH.
    unfold md_document, data_document, strip_data. go.
  Qed.
End C03.

(** ** Shape and data determine the document *)
Section Inj.
  Context {T : Type}.
  Definition determined {X Z} (sX : X -> Z) (dX : X -> list T) (a : X) : Prop :=
    forall b r1 r2, sX a = sX b -> dX a ++ r1 = dX b ++ r2 -> a = b /\ r1 = r2.

  Lemma determined_list {X Z} (sX : X -> Z) dX l :
    Forall (determined sX dX) l -> determined (map sX) (flat_map dX) l.
  Proof.
    induction 1 as [|x l Hx _ IH]; intros [|y l2] r1 r2 Hs Hd; cbn in *; try discriminate; auto.
    injection Hs as Hs1 Hs2. rewrite <- !app_assoc in Hd.
    destruct (Hx _ _ _ Hs1 Hd) as [-> Hd2]. destruct (IH _ _ _ Hs2 Hd2) as [-> ->]. auto.
  Qed.

  Ltac dstep :=
    match goal with
    | H : (_ ++ _) ++ _ = _ |- _ => rewrite <- !app_assoc in H
    | H : _ = (_ ++ _) ++ _ |- _ => rewrite <- !app_assoc in H
    | D : determined ?s ?d ?x, Hs : ?s ?x = ?s ?y, Hd : ?d ?x ++ _ = ?d ?y ++ _ |- _ =>
        let H1 := fresh in let H2 := fresh in
        destruct (D _ _ _ Hs Hd) as [H1 H2]; clear D Hd Hs; try subst
    | H : _ :: _ = _ :: _ |- _ => injection H as ? ?
    end.
  Ltac dgo :=
    match goal with |- determined _ _ _ =>
      let b := fresh "b" in let r1 := fresh "r" in let r2 := fresh "r" in
      let Hs := fresh "Hs" in let Hd := fresh "Hd" in
      intros b r1 r2 Hs Hd; destruct b; cbn in Hs; try discriminate Hs;
      repeat match goal with
      | x : glink_ _ _ |- _ => destruct x
      | x : glink_reference_ _ _ |- _ => destruct x
      | x : gimage _ |- _ => destruct x
      | x : gheading _ |- _ => destruct x
      | x : gcode_block _ |- _ => destruct x
      | x : glink_definition _ |- _ => destruct x
      | x : gtable _ |- _ => destruct x
      | x : glist_ _ _ |- _ => destruct x
      | x : gfootnote_definition_ _ _ |- _ => destruct x
      | x : ggithub_alert_ _ _ |- _ => destruct x
      end; cbn in *;
      try injection Hs as; repeat dstep; subst; cbn in *; repeat dstep; subst; auto
    end.

  Lemma determined_inline (a : ginline T) : determined strip_inline data_inline a.
  Proof.
    induction a using ginline_ind';
      repeat match goal with H : Forall _ _ |- _ => apply determined_list in H end; dgo.
  Qed.
  Lemma determined_inlines (l : list (ginline T)) :
    determined (map strip_inline) (flat_map data_inline) l.
  Proof. apply determined_list, Forall_all, determined_inline. Qed.

  Lemma from_glist_kind_inj a b : from_glist_kind a = from_glist_kind b -> a = b.
  Proof. destruct a, b; cbn; congruence. Qed.

  Lemma determined_block (a : gblock T) : determined strip_block data_block a.
  Proof.
    induction a using gblock_ind'.
    - pose proof (determined_inlines c). dgo.
    - pose proof (determined_inlines (gh_content h)). destruct h; cbn in *. dgo.
    - dgo.
    - apply determined_list in H. dgo.
    - assert (HH : determined (map (fun it => ListItem (gli_task it) (map strip_block (gli_blocks it))))
         (flat_map (fun it => flat_map data_block (gli_blocks it) ++ [gli_data it])) items).
      { apply determined_list. eapply Forall_impl; [|exact H]. intros [tk bs dd] Hit; cbn in *.
        apply determined_list in Hit. intros [tk2 bs2 dd2] r1 r2 Hs Hd; cbn in *.
        injection Hs as -> Hs. rewrite <- !app_assoc in Hd.
        destruct (Hit _ _ _ Hs Hd) as [-> Hd2]. injection Hd2 as -> ->. auto. }
      intros b r1 r2 Hs Hd. destruct b as [| | | |[k2 items2 d2]| | | | | | |]; cbn in Hs; try discriminate Hs.
      cbn in Hd. rewrite <- !app_assoc in Hd. injection Hs as Hk Hi.
      apply from_glist_kind_inj in Hk. destruct (HH _ _ _ Hi Hd) as [-> Hd2].
      injection Hd2 as -> ->. subst. auto.
    - dgo.
    - dgo.
    - pose proof (determined_inlines (gld_label d)). destruct d; cbn in *. dgo.
    - pose proof (determined_list _ _ (gt_rows t) (Forall_all _ (fun r =>
         determined_list _ _ r (Forall_all _ determined_inlines r)) (gt_rows t))) as HH.
      destruct t; cbn in *. dgo.
    - apply determined_list in H. dgo.
    - apply determined_list in H. dgo.
    - dgo.
  Qed.

  Lemma shape_and_data_determine (a b : gdocument T) :
    strip_data a = strip_data b -> data_document a = data_document b -> a = b.
  Proof.
    destruct a as [ba da], b as [bb db]. unfold strip_data, data_document; cbn.
    intros Hs Hd. injection Hs as Hs.
    destruct (determined_list _ _ ba (Forall_all _ determined_block ba) _ _ _ Hs Hd) as [-> Hd2].
    congruence.
  Qed.
End Inj.

Lemma call_all_pure {T U} (f : T -> U) l : call_all (pure_closure f) l tt = Some (map f l, tt).
Proof. induction l as [|x l IH]; cbn; [reflexivity|]. now rewrite IH. Qed.

Lemma map_user_data_spec {T U} (f : T -> U) d :
  exists d', map_user_data f d = Some d' /\ strip_data d' = strip_data d
             /\ data_document d' = map f (data_document d).
Proof.
  unfold map_user_data. pose proof (md_document_visits (pure_closure f) d tt) as H.
  rewrite call_all_pure in H. destruct (md_document (pure_closure f) d tt) as [[d' []]|]; [|discriminate].
  exists d'. destruct H as [H1 H2]. injection H1 as H1. cbn. repeat split; congruence.
Qed.

Lemma map_user_data_id {T} (d : gdocument T) : map_user_data (fun x => x) d = Some d.
Proof.
  destruct (map_user_data_spec (fun x : T => x) d) as (d' & -> & Hs & Hd). f_equal.
  apply shape_and_data_determine; [assumption|]. now rewrite Hd, map_id.
Qed.

Lemma map_user_data_comp {T U V} (f : T -> U) (g : U -> V) d :
  match map_user_data f d with
  | Some d1 => map_user_data g d1
  | None => None
  end = map_user_data (fun x => g (f x)) d.
Proof.
  destruct (map_user_data_spec f d) as (d1 & -> & Hs1 & Hd1).
  destruct (map_user_data_spec g d1) as (d2 & -> & Hs2 & Hd2).
  destruct (map_user_data_spec (fun x => g (f x)) d) as (d3 & -> & Hs3 & Hd3).
  f_equal. apply shape_and_data_determine; [congruence|].
  now rewrite Hd2, Hd1, Hd3, map_map.
Qed.

(** ** C04: ids *)
(** start, start+1, ..., n numbers *)
Fixpoint count_up (start : N) (n : nat) : list N :=
  match n with O => [] | S n' => start :: count_up (start + 1) n' end.

Lemma call_all_generate {T} (l : list T) : forall s, l <> [] \/ (s <= u64_max)%N ->
  call_all generate l s =
  if (s + N.of_nat (length l) <=? u64_max)%N
  then Some (count_up s (length l), (s + N.of_nat (length l))%N) else None.
Proof.
  induction l as [|x l IH]; intros s Hs.
  - destruct Hs as [|Hs]; [congruence|]. cbn. rewrite N.add_0_r.
    apply N.leb_le in Hs. now rewrite Hs.
  - cbn [call_all length]. unfold generate at 1.
    destruct (N.ltb_spec s u64_max) as [Hlt|Hge].
    + rewrite IH by (right; lia).
      replace (s + 1 + N.of_nat (length l))%N with (s + N.of_nat (S (length l)))%N by lia.
      destruct (N.leb _ _); reflexivity.
    + destruct (N.leb_spec (s + N.of_nat (S (length l))) u64_max); [lia|reflexivity].
Qed.

Lemma count_up_bounds start n x : In x (count_up start n) <-> (start <= x < start + N.of_nat n)%N.
Proof.
  revert start; induction n as [|n IH]; intros start; cbn [count_up In]; [lia|].
  rewrite IH. lia.
Qed.
Lemma count_up_NoDup start n : NoDup (count_up start n).
Proof.
  revert start; induction n as [|n IH]; intros start; cbn; constructor; auto.
  rewrite count_up_bounds. lia.
Qed.

Lemma data_document_nonempty {T} (d : gdocument T) : data_document d <> [].
Proof. unfold data_document. destruct (flat_map data_block (gd_blocks d)); discriminate. Qed.

Lemma add_ids_from_spec doc start :
  let n := length (data_document (to_generic doc)) in
  if (start + N.of_nat n <=? u64_max)%N
  then exists d', add_ids_from doc start = Some d' /\ strip_data d' = doc
                  /\ data_document d' = count_up start n
  else add_ids_from doc start = None.
Proof.
  intros n. unfold add_ids_from.
  pose proof (md_document_visits generate (with_default_data tt doc) start) as H.
  change (with_default_data tt doc) with (to_generic doc) in *.
  rewrite call_all_generate in H by (left; apply data_document_nonempty).
  fold n in H.
  destruct (md_document generate (to_generic doc) start) as [[d' s']|];
    destruct (start + N.of_nat n <=? u64_max)%N eqn:E; try reflexivity.
  - exists d'. destruct H as [H1 H2]. injection H1 as H1 H3. cbn. repeat split; auto.
    rewrite H2. apply strip_with.
  - destruct H; discriminate.
  - discriminate.
Qed.

Lemma add_ids_generic_spec {T} (doc : gdocument T) :
  let n := length (data_document doc) in
  if (1 + N.of_nat n <=? u64_max)%N
  then exists d', add_ids_to_generic_document doc = Some d' /\ strip_data d' = strip_data doc
                  /\ data_document d' = count_up 1 n
  else add_ids_to_generic_document doc = None.
Proof.
  intros n. unfold add_ids_to_generic_document.
  pose proof (md_document_visits generate doc 1%N) as H.
  rewrite call_all_generate in H by (left; apply data_document_nonempty).
  fold n in H.
  destruct (md_document generate doc 1%N) as [[d' s']|];
    destruct (1 + N.of_nat n <=? u64_max)%N eqn:E; try reflexivity.
  - exists d'. destruct H as [H1 H2]. injection H1 as H1 H3. cbn. repeat split; auto.
  - destruct H; discriminate.
  - discriminate.
Qed.

(** ** Node counts: the data listing has one entry for the document, each
    block, each list item and each inline *)

Lemma inline_data_length {T} (df : T) i : forall d,
  length (data_inline (with_data_inline df i d)) = length (inline_preorder i).
Proof.
  assert (L : forall c, Forall (fun i => forall d,
     length (data_inline (with_data_inline df i d)) = length (inline_preorder i)) c ->
     length (flat_map data_inline (map (fun x => with_data_inline df x df) c))
       = length (flat_map inline_preorder c)).
  { induction 1 as [|x l Hx _ IH]; cbn; [reflexivity|]. now rewrite !app_length, Hx, IH. }
  induction i using inline_ind'; intros dd; cbn; rewrite ?app_length; cbn;
    rewrite ?app_length; rewrite ?L by assumption; cbn; lia.
Qed.
Lemma inlines_data_length {T} (df : T) c :
  length (flat_map data_inline (with_data_inlines df c)) = length (flat_map inline_preorder c).
Proof.
  unfold with_data_inlines. induction c as [|x l IH]; cbn; [reflexivity|].
  now rewrite !app_length, inline_data_length, IH.
Qed.

Definition list_item_count (b : block) : nat :=
  match b with BList l => length (l_items l) | _ => 0 end.
Definition block_nodes (bs : list block) : nat :=
  length bs + list_sum (map list_item_count bs)
  + length (flat_map (fun b => flat_map inline_preorder (block_inlines b)) bs).

Arguments block_nodes : simpl never.
Lemma block_nodes_app a b : block_nodes (a ++ b) = block_nodes a + block_nodes b.
Proof.
  unfold block_nodes. rewrite map_app, list_sum_app, flat_map_app, !app_length. lia.
Qed.
Lemma block_nodes_cons b l :
  block_nodes (b :: l) = 1 + list_item_count b + length (flat_map inline_preorder (block_inlines b)) + block_nodes l.
Proof. unfold block_nodes. cbn [length map flat_map]. rewrite app_length. change (list_sum (list_item_count b :: map list_item_count l)) with (list_item_count b + list_sum (map list_item_count l)). lia. Qed.

Lemma block_data_length {T} (df : T) b : forall d,
  length (data_block (with_data_block df b d)) = block_nodes (block_preorder b).
Proof.
  assert (L : forall c, Forall (fun i => forall d,
     length (data_block (with_data_block df i d)) = block_nodes (block_preorder i)) c ->
     length (flat_map data_block (map (fun x => with_data_block df x df) c))
       = block_nodes (flat_map block_preorder c)).
  { induction 1 as [|x l Hx _ IH]; cbn; [reflexivity|]. now rewrite !app_length, Hx, IH, block_nodes_app. }
  induction b using block_ind'; intros dd; cbn [block_preorder]; rewrite block_nodes_cons;
    cbn [with_data_block data_block list_item_count block_inlines gh_content gh_data gld_label gld_data
         gli_blocks gli_data gll_items gll_data l_items gfd_blocks gfd_data gga_blocks gga_data fd_blocks ga_blocks
         gt_rows gt_data t_rows gcb_data];
    rewrite ?app_length, ?inlines_data_length; rewrite ?L by assumption; cbn [length flat_map]; change (block_nodes []) with 0; try (cbn; lia).
  - rewrite Nat.add_0_r. replace (length _) with (length items + block_nodes (flat_map (fun it => flat_map block_preorder (li_blocks it)) items)); [lia|].
    induction H as [|[tk bs] l Hx _ IH]; cbn; [reflexivity|].
    rewrite !app_length, block_nodes_app, L by assumption. cbn in *. rewrite <- IH. cbn. lia.
  - assert (E : length (flat_map (flat_map (flat_map data_inline)) (map (map (with_data_inlines df)) (t_rows t)))
       = length (flat_map inline_preorder (concat (concat (t_rows t))))).
    { induction (t_rows t) as [|r rs IH]; cbn; [reflexivity|].
      rewrite concat_app, flat_map_app, !app_length, IH. f_equal.
      induction r as [|c r IHr]; cbn; [reflexivity|].
      now rewrite flat_map_app, !app_length, IHr, inlines_data_length. }
    rewrite E. change (block_nodes []) with 0; cbn; lia.
Qed.

Lemma document_data_length {T} (df : T) d data :
  length (data_document (with_data df d data)) =
  1 + length (doc_blocks d) + list_sum (map list_item_count (doc_blocks d)) + length (doc_inlines d).
Proof.
  unfold data_document, doc_inlines, doc_blocks. rewrite app_length. cbn.
  transitivity (1 + block_nodes (flat_map block_preorder (d_blocks d))); [|unfold block_nodes; lia].
  rewrite Nat.add_comm. cbn. f_equal.
  induction (d_blocks d) as [|b bs IH]; cbn; [reflexivity|].
  now rewrite app_length, block_nodes_app, block_data_length, IH.
Qed.
Lemma add_ids_from_nodes doc start :
  let n := 1 + length (doc_blocks doc) + list_sum (map list_item_count (doc_blocks doc)) + length (doc_inlines doc) in
  if (start + N.of_nat n <=? u64_max)%N
  then exists d', add_ids_from doc start = Some d' /\ strip_data d' = doc
                  /\ data_document d' = count_up start n
  else add_ids_from doc start = None.
Proof.
  intros n. pose proof (add_ids_from_spec doc start) as H.
  unfold to_generic, with_default_data in H. rewrite document_data_length in H. exact H.
Qed.
