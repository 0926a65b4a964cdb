(** C106: the nesting of a document against the length of its source. *)
From Coq Require Import String Lia.
From Verif Require Import SpecSize ShapeFacts SpecLoss CharFacts SizeFacts SpecDepth SpecInline SpecBlock.
Import ListNotations.
Open Scope list_scope.

Notation len := (@List.length char).
Lemma deepest_app : forall a b, deepest (a ++ b) = Nat.max (deepest a) (deepest b).
Proof. intros a b. unfold deepest. induction a as [|x a IH]; cbn in *; lia. Qed.
Lemma inlines_deep : forall a b, inlines_depth (a ++ b) = Nat.max (inlines_depth a) (inlines_depth b).
Proof. intros. unfold inlines_depth. now rewrite map_app, deepest_app. Qed.
Lemma blocks_deep : forall a b, blocks_depth (a ++ b) = Nat.max (blocks_depth a) (blocks_depth b).
Proof. intros. unfold blocks_depth. now rewrite map_app, deepest_app. Qed.
Lemma deepest_under : forall l n, Forall (fun x => x <= n) l -> deepest l <= n.
Proof. intros l n F. unfold deepest. induction F; cbn [fold_right]; lia. Qed.
Lemma joins_deep : forall l l', joins_to l l' -> inlines_depth l' <= inlines_depth l.
Proof.
  intros l l' J. induction J as [|l m n [a s t b] J IH]; [lia|]. etransitivity; [exact IH|]. rewrite !inlines_deep. unfold inlines_depth. cbn [map deepest fold_right inline_depth]. lia.
Qed.

Section Depth.
  Variable cfg : config.
  Hypothesis Hu : no_user_code cfg.
  Hypothesis Ht : small_tables cfg.
  Lemma inline_deep :
    (forall p i, builds cfg p i -> behavior_of cfg p = Parse -> 1 <= piece_len p -> inline_depth i <= piece_len p) /\
    (forall p o, yields cfg p o -> behavior_of cfg p <> Ignore -> plain_behavior (behavior_of cfg p) -> 1 <= piece_len p -> (forall l, p <> PCustom l) -> inlines_depth o <= piece_len p) /\
    (forall s l, pieces cfg s l -> inlines_depth l <= len s) /\
    (forall s l, reads cfg s l -> inlines_depth l <= len s).
  Proof.
    apply inline_mut; cbn [piece_len inline_depth behavior_of link_children lr_label lr_text].
    - intros u _ N. lia.
    - intros text d t c _ IH _ N. fold (inlines_depth c). lia.
    - intros l _ N. lia.
    - intros text label a b _ IA _ IB _ N. fold (inlines_depth a). fold (inlines_depth b). lia.
    - intros text a _ IA HP N. fold (inlines_depth a). lia.
    - intros _. lia.
    - intros d t a _ N. lia.
    - intros c _ N. lia.
    - intros w _ N. lia.
    - intros text c _ IH _ N. fold (inlines_depth c). lia.
    - intros text c _ IH _ N. fold (inlines_depth c). lia.
    - intros text c _ IH _ N. cbn [map deepest fold_right]. unfold inline_depth; fold inline_depth; fold (inlines_depth c). lia.
    - intros text c _ IH _ N. fold (inlines_depth c). lia.
    - intros t _ N. lia.
    - intros p i _ IH N P L _. destruct (behavior_of cfg p) eqn:E; try contradiction; cbn [outcome]; unfold inlines_depth; cbn [map deepest fold_right].
      + specialize (IH eq_refl L). lia.
      + cbn [inline_depth]. lia.
    - intros l _ _ _ H. now elim (H l).
    - unfold inlines_depth. cbn. lia.
    - intros s p r o l H _ IY _ IH. apply n_piece in H as (H1 & H2 & H3 & H4 & H5); [|assumption..]. specialize (IY H3 H4 H2 H5). rewrite inlines_deep. lia.
    - intros s l l' _ IH J _. apply joins_deep in J. lia.
  Qed.
  Lemma reads_deep : forall s l, reads cfg s l -> inlines_depth l <= len s.
  Proof. apply inline_deep. Qed.
  Lemma row_deep : forall n l c, row_cells cfg n l c -> Forall (fun x => inlines_depth x <= 1 + cells_len l) c.
  Proof.
    intros n l c H. unfold cells_len, total. induction H as [l|n c _ IH|n t u i l c TR RD _ IH]; [constructor|..].
    - constructor; [cbn; lia|exact IH].
    - apply reads_deep in RD. assert (len u <= len t) by (destruct TR as (x & y & -> & _); unfold char, str in *; rewrite !app_length; lia). cbn [map fold_right]. constructor; [unfold char, str in *; lia|].
      eapply Forall_impl; [|exact IH]. cbv beta. intros x X. lia.
  Qed.
  Lemma concat_deep : forall l n, Forall (fun x => inlines_depth x <= n) l -> inlines_depth (concat l) <= n.
  Proof. intros l n F. induction F as [|x l X F IH]; [cbn; lia|]. cbn [concat]. rewrite inlines_deep. lia. Qed.
  Lemma block_deep :
    (forall h b, makes cfg h b -> forall k, fits h k -> 1 <= k -> block_behavior cfg h = Parse -> block_depth b <= k + 1) /\
    (forall items l, item_blocks cfg items l -> deepest (map (fun it => blocks_depth (li_blocks it)) l) <= total (map (fun it => 1 + len (snd it)) items)) /\
    (forall h o, makes_all cfg h o -> forall k, fits h k -> 1 <= k -> block_behavior cfg h <> Ignore -> plain_behavior (block_behavior cfg h) -> blocks_depth o <= k + 1) /\
    (forall s l, blocks cfg s l -> blocks_depth l <= len s + 1).
  Proof.
    apply block_mut; cbn [fits block_depth block_behavior block_inlines l_items fd_blocks ga_blocks t_rows h_content ld_label].
    - intros c k _ N _. cbn. lia.
    - intros hk t l RD k H N _. apply reads_deep in RD. lia.
    - intros t l RD k H N _. apply reads_deep in RD. lia.
    - intros k _ N _. cbn. lia.
    - intros ty t bs _ IH k (j & J1 & J2 & J3) N _. fold (blocks_depth bs). lia.
    - intros t bs _ IH k H N _. fold (blocks_depth bs). lia.
    - intros kd items l _ IH k [NE H] N _. change (1 + deepest (map (fun it => blocks_depth (li_blocks it)) l) <= k + 1). lia.
    - intros s k H N _. cbn. lia.
    - intros label t bs _ IH k H N _. fold (blocks_depth bs). lia.
    - intros label d t l RD k H N _. apply reads_deep in RD. lia.
    - intros header rows al h l RH RL k (A1 & A2 & A3) N _.
      assert (E : inlines_depth (concat (concat (h :: l))) <= k); [|refine (Nat.le_trans _ _ _ (le_n_S _ _ E) _); lia].
      apply concat_deep. cbn [concat]. apply Forall_app. split.
      + apply row_deep in RH. eapply Forall_impl; [|exact RH]. cbv beta. intros x X. lia.
      + assert (RB : forall rows l, Forall2 (row_cells cfg (List.length header)) rows l ->
          Forall (fun x => inlines_depth x <= 1 + total (map (fun row => 1 + cells_len row) rows)) (concat l)).
        { clear -Hu Ht. intros rows l RL. induction RL as [|x y xs ys R _ IH]; [constructor|]. cbn [concat map]. unfold total in *. cbn [fold_right]. apply Forall_app. split.
          - apply row_deep in R. eapply Forall_impl; [|exact R]. cbv beta. intros z X. lia.
          - eapply Forall_impl; [|exact IH]. cbv beta. intros z X. lia. }
        apply RB in RL. eapply Forall_impl; [|exact RL]. cbv beta. intros x X. lia.
    - intros t l RD k H N _. apply reads_deep in RD. lia.
    - cbn. lia.
    - intros t text bs items l _ IB _ IH. cbn [map snd li_blocks]. unfold total, deepest in *. cbn [fold_right]. lia.
    - intros h b _ IH k H N NI P. destruct (block_behavior cfg h) eqn:E; try contradiction; cbn [outcome]; unfold blocks_depth; cbn [map deepest fold_right].
      + specialize (IH k H N eq_refl). lia.
      + cbn. lia.
    - intros l k [].
    - intros s _. cbn. lia.
    - intros s bl m h r o l B H _ IM _ IH. apply n_blanks in B. subst s. apply (n_shape cfg Hu Ht (fun n => 2 * n) (le_n 2)) in H as ((k & K1 & K2 & K3) & H1 & H2 & _). specialize (IM k K1 K2 H1 H2). rewrite blocks_deep. rewrite app_length. unfold char, str in *. lia.
  Qed.
  Theorem blocks_depth_bound : forall s l, blocks cfg s l -> blocks_depth l <= len s + 1.
  Proof. apply block_deep. Qed.
End Depth.
