(** When rendering Markdown panics. *)
From Coq Require Import String Lia.
From Verif Require HtmlView.
From Verif Require Export MdView.
Import ListNotations.
Open Scope list_scope.

Scheme panics_mind := Minimality for panics Sort Prop
  with panics_blocks_mind := Minimality for panics_blocks Sort Prop.

Ltac dif := match goal with |- context [if ?b then _ else _] => destruct b | H : context [if ?b then _ else _] |- _ => destruct b end.
Section Panic.
Variable uwidth : str -> nat.
Variable upper : char -> str.
Variable udigit : char -> bool.
Variable big : nat.

Definition hard (w : nat) (rest : list cmd) : Prop := forall pos, fit_rest uwidth w rest pos <> FPanic.
Lemma hard_nil w : hard w [].
Proof. intro pos. discriminate. Qed.
Lemma hard_line w i m rest : hard w ((i, m, DHardline) :: rest).
Proof. intro pos. discriminate. Qed.

(** [W i d P]: rendering [d] at indentation [i] from column [pos] panics iff [P pos]. *)
Definition W (i : nat) (d : doc) (P : nat -> Prop) : Prop :=
  (forall w m rest pos, hard w rest -> (best uwidth w i m d rest pos = None <-> P pos)) /\
  (forall w m pos, fit uwidth w m d pos = FPanic -> P pos).
Lemma W_ext i d P Q : W i d P -> (forall pos, P pos <-> Q pos) -> W i d Q.
Proof.
  intros [A B] E. split.
  - intros w m rest pos H. rewrite A by auto. apply E.
  - intros w m pos H. apply E. eauto.
Qed.
Lemma W_nil i : W i DNil (fun _ => False).
Proof. split; [intros; cbn; split; [discriminate|tauto]|intros; discriminate]. Qed.
Lemma W_nil_inv i P pos : W i DNil P -> ~ P pos.
Proof. intros [A _] H. apply (A 0 Break [] pos (hard_nil _)) in H. discriminate. Qed.
Lemma W_text i s : W i (DText s) (fun _ => False).
Proof.
  split; [intros; cbn; split; [discriminate|tauto]|intros w m pos; cbn; dif; discriminate].
Qed.
Lemma W_panic i (P : nat -> Prop) : (forall pos, P pos) -> W i DPanic P.
Proof. intro H. split; [intros; cbn; split; auto|auto]. Qed.
Lemma W_line i : W i DHardline (fun _ => False).
Proof. split; [intros; cbn; split; [discriminate|tauto]|intros w [|] pos; discriminate]. Qed.
Lemma W_soft i : W i softline (fun _ => False).
Proof.
  split.
  - intros w m rest pos H. split; [|tauto]. unfold softline, group, line, space. cbn [best].
    destruct m; [|discriminate].
    destruct (fitting uwidth w _ rest pos) eqn:E; try discriminate.
    unfold fitting in E. cbn [fit] in E. dif; try discriminate. now apply H in E.
  - intros w m pos. unfold softline, group, line, space. cbn [fit]. destruct m; [discriminate|].
    dif; discriminate.
Qed.
(** calm documents *)
Lemma W_append_calm i a b : W i a (fun _ => False) -> W i b (fun _ => False) -> W i (append a b) (fun _ => False).
Proof.
  intros A B. destruct (append_spec a b) as [[_ ->]|[[_ ->]|(_ & _ & ->)]]; auto.
  destruct A as [A A'], B as [B B']. split.
  - intros w m rest pos H. split; [|tauto]. cbn [best]. intro E.
    destruct (best uwidth w i m a _ pos) as [[o p]|] eqn:Ea.
    + destruct (best uwidth w i m b rest p) as [[o' p']|] eqn:Eb; [discriminate|]. now apply B in Eb.
    + apply A in Ea; auto. intros q. cbn [fit_rest]. destruct (fit uwidth w Break b q) eqn:F; try discriminate; auto.
      exfalso. eapply B'; eassumption.
  - intros w m pos. cbn [fit]. destruct (fit uwidth w m a pos) eqn:F; try discriminate; [apply B'|].
    intros _. eapply A'; eassumption.
Qed.
Lemma W_calm_fold i (l : list doc) : Forall (fun d => W i d (fun _ => False)) l -> forall acc, W i acc (fun _ => False) ->
  W i (fold_left append l acc) (fun _ => False).
Proof. induction 1; intros acc A; cbn; auto. apply IHForall. now apply W_append_calm. Qed.
Lemma W_calm_intersperse i l sep : Forall (fun d => W i d (fun _ => False)) l -> W i sep (fun _ => False) ->
  W i (intersperse l sep) (fun _ => False).
Proof.
  intros F S. destruct F as [|x l X F]; [apply W_nil|]. cbn. revert x X. induction F; intros x' X; cbn; auto.
  apply IHF. apply W_append_calm; [apply W_append_calm|]; auto.
Qed.
(** text in front *)
Definition tx (d : doc) (n : nat) : Prop :=
  (forall w i m rest pos, exists o, best uwidth w i m d rest pos = Some (o, pos + n)) /\
  (forall w m pos, fit uwidth w m d pos = FNo \/ fit uwidth w m d pos = FGo (pos + n)).
Lemma tx_text s : tx (DText s) (text_len uwidth s).
Proof.
  split; [intros; cbn; eexists; reflexivity|]. intros w m pos. cbn. dif; auto.
Qed.
Lemma tx_nil : tx DNil 0.
Proof. split; intros; rewrite Nat.add_0_r; [eexists; reflexivity|now right]. Qed.
Lemma tx_append a b x y : tx a x -> tx b y -> tx (append a b) (x + y).
Proof.
  intros A B. destruct (append_spec a b) as [[-> ->]|[[-> ->]|(_ & _ & ->)]].
  - assert (x = 0) as ->; auto. destruct A as [A _]. destruct (A 0 0 Break [] 0) as (o & E). cbn in E. congruence.
  - assert (y = 0) as ->; [|now rewrite Nat.add_0_r]. destruct B as [B _]. destruct (B 0 0 Break [] 0) as (o & E). cbn in E. congruence.
  - destruct A as [A A'], B as [B B']. split.
    + intros w i m rest pos. cbn [best]. destruct (A w i m ((i, m, b) :: rest) pos) as (o & ->).
      destruct (B w i m rest (pos + x)) as (o' & ->). eexists. now rewrite Nat.add_assoc.
    + intros w m pos. cbn [fit]. destruct (A' w m pos) as [->| ->]; auto. rewrite Nat.add_assoc. apply B'.
Qed.
Lemma W_tx i a n d P : tx a n -> W i d P -> W i (append a d) (fun pos => P (pos + n)).
Proof.
  intros [A A'] D. destruct (append_spec a d) as [[-> ->]|[[-> ->]|(_ & _ & ->)]].
  - assert (n = 0) as ->. { destruct (A 0 0 Break [] 0) as (o & E). cbn in E. congruence. }
    eapply W_ext; [exact D|]. intro pos. now rewrite Nat.add_0_r.
  - assert (N : forall pos, ~ P pos) by (intro pos; eapply W_nil_inv; eassumption).
    split.
    + intros w m rest pos H. destruct (A w i m rest pos) as (o & ->). split; [discriminate|]. intro H'. now apply N in H'.
    + intros w m pos E. destruct (A' w m pos) as [F|F]; congruence.
  - destruct D as [D D']. split.
    + intros w m rest pos H. cbn [best]. destruct (A w i m ((i, m, d) :: rest) pos) as (o & ->).
      rewrite <- (D w m rest (pos + n) H). destruct best as [[? ?]|]; split; congruence.
    + intros w m pos. cbn [fit]. destruct (A' w m pos) as [->| ->]; [discriminate|]. apply D'.
Qed.
(** a line break between two documents *)
Lemma W_append_line i a P : W i a P -> W i (append a DHardline) P.
Proof.
  intro A. destruct (append_spec a DHardline) as [[-> ->]|[[? _]|(_ & _ & ->)]]; [|discriminate|].
  - eapply W_ext; [apply W_line|]. intro pos. split; [tauto|]. now apply W_nil_inv with (pos := pos) in A.
  - destruct A as [A A']. split.
    + intros w m rest pos H. cbn [best]. rewrite <- (A w m ((i, m, DHardline) :: rest) pos (hard_line _ _ _ _)).
      destruct best as [[? ?]|]; split; congruence.
    + intros w m pos. cbn [fit]. destruct (fit uwidth w m a pos) eqn:F; try discriminate.
      * destruct m; discriminate.
      * intros _. eapply A'; eassumption.
Qed.
Lemma W_line_append i a d P Q : W i a P -> W i d Q -> W i (append (append a DHardline) d) (fun pos => P pos \/ Q i).
Proof.
  intros A D. pose proof (W_append_line i a P A) as B.
  destruct (append_spec (append a DHardline) d) as [[E _]|[[-> ->]|(_ & N & ->)]].
  - destruct a; discriminate.
  - eapply W_ext; [exact B|]. intro pos. pose proof (W_nil_inv _ _ i D). tauto.
  - assert (L : forall w m rest pos o p, best uwidth w i m (append a DHardline) ((i, m, d) :: rest) pos = Some (o, p) -> p = i).
    { intros w m rest pos o p E. destruct (append_spec a DHardline) as [[-> H]|[[? _]|(_ & _ & H)]]; try discriminate; rewrite H in E; cbn [best] in E.
      - congruence.
      - destruct best as [[? ?]|]; congruence. }
    destruct B as [B B'], D as [D D']. split.
    + intros w m rest pos H. cbn [best].
      assert (HH : best uwidth w i m (append a DHardline) ((i, m, d) :: rest) pos = None <-> P pos).
      { (* the hard line break comes first *)
        destruct (append_spec a DHardline) as [[-> H']|[[? _]|(_ & _ & H')]]; try discriminate; rewrite H'.
        - cbn. split; [discriminate|]. intro X. now apply (W_nil_inv _ _ _ A) in X.
        - cbn [best]. destruct A as [A _]. rewrite <- (A w m ((i, m, DHardline) :: (i, m, d) :: rest) pos (hard_line _ _ _ _)).
          destruct best as [[? ?]|]; split; congruence. }
      destruct (best uwidth w i m (append a DHardline) ((i, m, d) :: rest) pos) as [[o p]|] eqn:E.
      * apply L in E. subst p. rewrite <- (D w m rest i H). destruct best as [[? ?]|]; split; intuition congruence.
      * tauto.
    + intros w m pos E. left. cbn [fit] in E. destruct (fit uwidth w m (append a DHardline) pos) eqn:F; try discriminate.
      * exfalso. destruct (append_spec a DHardline) as [[-> H]|[[? _]|(_ & _ & H)]]; try discriminate; rewrite H in F; cbn [fit] in F.
        -- destruct m; discriminate.
        -- destruct (fit uwidth w m a pos); try discriminate. destruct m; discriminate.
      * eapply B'; eassumption.
Qed.
Lemma W_group i d P : W i d P -> W i (group d) P.
Proof.
  intros H. assert (G : W i (DGroup d) P).
  { destruct H as [A B]. split.
    - intros w m rest pos H. cbn [best]. destruct m; [|now apply A].
      destruct (fitting uwidth w d rest pos) eqn:E; try now apply A.
      unfold fitting in E. destruct (fit uwidth w Flat d pos) eqn:F; try discriminate.
      + now apply H in E.
      + apply B in F. tauto.
    - intros w m pos. cbn [fit]. apply B. }
  destruct d; auto.
Qed.
Lemma W_nest i n d P : W (i + n) d P -> W i (nest n d) P.
Proof.
  intro H. destruct n. { rewrite Nat.add_0_r in H. destruct d; exact H. }
  assert (G : W i (DNest (S n) d) P) by (destruct H as [A B]; split; intros; cbn; eauto; now apply A).
  destruct d; auto.
Qed.

(** ** Inlines are calm *)
Lemma W_inline i wrap x : W i (md_inline udigit wrap x) (fun _ => False).
Proof.
  assert (S : forall l acc, W i acc (fun _ => False) -> W i (safe_text_go udigit l acc) (fun _ => False)).
  { induction l as [|[w|] l IH]; intros acc A; cbn [safe_text_go]; auto; apply IH; apply W_append_calm; auto.
    - apply W_text.
    - destruct (find_next_word l) as [w|]; [|apply W_soft]. destruct (is_safe_line_break_before udigit w); [apply W_soft|apply W_text]. }
  assert (C : forall l, Forall (fun x => W i (md_inline udigit wrap x) (fun _ => False)) l ->
     W i (concat_docs (map (md_inline udigit wrap) l)) (fun _ => False)).
  { intros l F. apply W_calm_fold; [|apply W_nil]. now apply Forall_map. }
  induction x using inline_ind'; cbn [md_inline];
    repeat first [apply W_text | apply W_nil | apply W_append_calm | apply C; assumption].
  - destruct wrap; [apply S, W_nil|]. apply W_calm_fold; [|apply W_nil]. apply Forall_map, Forall_forall.
    intros [w|] _; apply W_text.
  - cbn [link_title]. destruct t; repeat first [apply W_text | apply W_nil | apply W_append_calm].
  - cbn [lr_label lr_text]. destruct (list_eqb inline_eqb l t); repeat first [apply W_text | apply W_append_calm | apply C; assumption].
Qed.
Lemma W_inlines i wrap l : W i (md_inlines udigit wrap l) (fun _ => False).
Proof. apply W_calm_fold; [|apply W_nil]. apply Forall_map, Forall_forall. intros x _. apply W_inline. Qed.
Lemma W_render d P w : W 0 d P -> (render uwidth w d = None <-> P 0).
Proof.
  intros [A _]. unfold render. rewrite <- (A w Break [] 0 (hard_nil _)). destruct best as [[? ?]|]; cbn; split; congruence.
Qed.

(** ** Tables *)
Inductive flat_doc : doc -> Prop -> Prop :=
| flat_nil : flat_doc DNil False
| flat_text : forall s, flat_doc (DText s) False
| flat_line : flat_doc DHardline False
| flat_panic : forall P : Prop, P -> flat_doc DPanic P
| flat_append : forall a b P Q, flat_doc a P -> flat_doc b Q -> flat_doc (DAppend a b) (P \/ Q)
| flat_ext : forall d (P Q : Prop), flat_doc d P -> (P <-> Q) -> flat_doc d Q.
Lemma flat_best d P : flat_doc d P -> forall w i m rest pos, best uwidth w i m d rest pos = None <-> P.
Proof.
  induction 1; intros w i m rest pos; cbn [best]; try (split; [discriminate|tauto]).
  - tauto.
  - rewrite <- (IHflat_doc1 w i m ((i, m, b) :: rest) pos).
    destruct (best uwidth w i m a _ pos) as [[? p]|]; [|tauto].
    rewrite <- (IHflat_doc2 w i m rest p). destruct best as [[? ?]|]; split; intuition congruence.
  - rewrite IHflat_doc. assumption.
Qed.
Lemma flat_app a b P Q : flat_doc a P -> flat_doc b Q -> flat_doc (append a b) (P \/ Q).
Proof.
  intros A B. destruct (append_spec a b) as [[-> ->]|[[-> ->]|(_ & _ & ->)]].
  - assert (~ P). { intro H. apply (flat_best _ _ A 0 0 Break [] 0) in H. discriminate. }
    eapply flat_ext; [exact B|tauto].
  - assert (~ Q). { intro H. apply (flat_best _ _ B 0 0 Break [] 0) in H. discriminate. }
    eapply flat_ext; [exact A|tauto].
  - now constructor.
Qed.
Lemma flat_render d P w : flat_doc d P -> (render uwidth w d = None <-> P).
Proof.
  intro F. unfold render. rewrite <- (flat_best _ _ F w 0 Break [] 0). destruct best as [[? ?]|]; cbn; split; congruence.
Qed.
Lemma flat_rows {A} (f : nat -> A -> doc) (P : nat -> A -> Prop) : (forall i x, flat_doc (f i x) (P i x)) ->
  forall l i acc Q, flat_doc acc Q ->
  flat_doc (row_go f i l acc) (Q \/ exists k x, nth_error l k = Some x /\ P (i + k) x).
Proof.
  intro H. induction l as [|x l IH]; intros i acc Q F; cbn [row_go].
  - eapply flat_ext; [exact F|]. split; [tauto|]. intros [?|([|k] & x & E & _)]; auto; discriminate.
  - eapply flat_ext.
    + apply IH. apply flat_app; [|apply H]. instantiate (1 := Q).
      destruct (0 <? i); auto. eapply flat_ext; [apply flat_app; [exact F|apply flat_text]|tauto].
    + cbn beta. split.
      * intros [[A1|A1]|(k & y & E & A1)]; auto; right.
        -- exists 0, x. now rewrite Nat.add_0_r.
        -- exists (S k), y. now rewrite <- plus_n_Sm.
      * intros [A1|([|k] & y & E & A1)]; auto.
        -- injection E as <-. rewrite Nat.add_0_r in A1. auto.
        -- right. exists k, y. rewrite <- plus_n_Sm in A1. auto.
Qed.
Lemma flat_intersperse l : Forall2 flat_doc (map fst l) (map snd l) ->
  flat_doc (intersperse (map fst l) DHardline) (Exists snd l).
Proof.
  destruct l as [|[d P] l]; cbn [map fst snd intersperse].
  - intros _. eapply flat_ext; [constructor|]. split; [tauto|]. intro H; inversion H.
  - intro F. inversion_clear F. revert d P H.
    induction l as [|[e Q] l IH]; intros d P A; cbn [map fst snd fold_left] in *.
    + eapply flat_ext; [exact A|]. split; [now constructor|]. intro H; inversion H as [|? ? X]; subst; auto. inversion X.
    + inversion_clear H0. eapply flat_ext; [apply IH; auto|].
      * apply flat_app; [|eassumption]. apply flat_app; [exact A|constructor].
      * cbn [fst snd]. rewrite !Exists_cons. cbn [snd]. tauto.
Qed.
Lemma all_some_total {A B} (f : A -> option B) l : (forall x, f x <> None) -> all_some (map f l) <> None.
Proof.
  intro H. induction l as [|x l IH]; cbn; [discriminate|]. specialize (H x). destruct (f x); [|congruence].
  destruct (all_some (map f l)); [discriminate|congruence].
Qed.
Lemma table_content_total t : table_content uwidth udigit big t = Some (map (map (one_line udigit)) (t_rows t)).
Proof.
  destruct (table_content uwidth udigit big t) as [c|] eqn:E.
  - now apply (table_content_text uwidth udigit big 0) in E as ->.
  - exfalso. revert E. apply all_some_total. intro row. apply all_some_total. intros c E.
    apply (W_render _ _ _ (W_inlines 0 false c)) in E. exact E.
Qed.
Lemma widest_enough t row k : In row (t_rows t) -> List.length (one_line udigit (nth k row [])) <= widest udigit t k.
Proof.
  intro I. unfold widest. cbn [list_max fold_right]. change (fold_right Nat.max 0 ?l) with (list_max l).
  assert (G : List.length (one_line udigit (nth k row []))
     <= list_max (map (fun row => List.length (one_line udigit (nth k row []))) (t_rows t))).
  { eapply (proj1 (Forall_forall (fun x => x <= _) _) (proj1 (list_max_le _ _) (le_n _))).
    apply in_map_iff. exists row. auto. }
  unfold str, char in *. lia.
Qed.

Definition row_overflow (t : table) (row : table_row) : Prop :=
  exists k cell, nth_error row k = Some cell /\ List.length (hd [] (t_rows t)) <= k /\ 3 < List.length (one_line udigit cell).
Lemma flat_row t row : In row (t_rows t) ->
  flat_doc (row_to_doc (map (one_line udigit) row)
     (columns_width (map (map (one_line udigit)) (t_rows t)) (t_alignments t)) (t_alignments t)) (row_overflow t row).
Proof.
  intro I. unfold row_to_doc. eapply flat_ext.
  - apply flat_app; [|constructor].
    apply (flat_rows _ (fun k s => column_chars udigit t k < List.length s)); [|constructor].
    intros k s. rewrite nth_width_chars. unfold cell_to_doc. destruct (Nat.ltb_spec (column_chars udigit t k) (List.length s)).
    + now constructor.
    + eapply flat_ext; [constructor|]. lia.
  - split.
    + intros [[[]|(k & s & E & L)]|[]]. cbn in L. rewrite nth_error_map in E.
      match type of E with option_map _ ?n = _ => destruct n as [cell|] eqn:C end; cbn [option_map] in E; [|discriminate E]. injection E as <-.
      unfold column_chars in L. destruct (Nat.ltb_spec k (List.length (hd [] (t_rows t)))) as [K|K].
      * pose proof (widest_enough t row k I) as X. rewrite (nth_error_nth _ _ _ C) in X. unfold str, char in *. lia.
      * now exists k, cell.
    + intros (k & cell & E & K & L). left. right. exists k, (one_line udigit cell). split.
      * rewrite nth_error_map. change (nth_error row k) with (@nth_error (list inline) row k) in E. now rewrite E.
      * cbn. unfold column_chars. destruct (Nat.ltb_spec k (List.length (hd [] (t_rows t)))); [lia|]. exact L.
Qed.
Lemma flat_alignments als ws : flat_doc (alignments_row_to_doc als ws) False.
Proof.
  unfold alignments_row_to_doc. eapply flat_ext.
  - apply flat_app; [|constructor]. apply (flat_rows _ (fun _ _ => False)); [|constructor].
    intros k al. destruct al; cbn [alignment_to_doc]; try constructor.
    + eapply flat_ext; [apply flat_app; [apply flat_app|]; constructor|tauto].
    + eapply flat_ext; [apply flat_app; constructor|tauto].
  - split; [|tauto]. intros [[[]|(? & ? & _ & [])]|[]].
Qed.
Lemma table_overflow_rows t : table_overflow udigit t <-> exists row, In row (t_rows t) /\ row_overflow t row.
Proof.
  unfold table_overflow, row_overflow. split.
  - intros (h & row & k & cell & H & I & E & K & L). exists row. split; auto. exists k, cell.
    destruct (t_rows t); [discriminate|]. injection H as ->. auto.
  - intros (row & I & k & cell & E & K & L). destruct (t_rows t) as [|h rows] eqn:R; [destruct I|].
    exists h, row, k, cell. cbn in *. tauto.
Qed.
Lemma W_table i t : W i (md_table uwidth udigit big t) (fun _ => table_overflow udigit t).
Proof.
  unfold md_table. pose proof (table_overflow_rows t) as T. rewrite table_content_total.
  destruct (t_rows t) as [|header body] eqn:R.
  { eapply W_ext; [apply W_nil|]. intros ?; cbn beta. rewrite T. split; [tauto|]. intros (? & [] & _). }
  set (ws := columns_width _ _). set (doc := intersperse _ _).
  assert (F : flat_doc doc (table_overflow udigit t)).
  { unfold doc. cbn [hd tl map].
    assert (G := flat_intersperse
      ((row_to_doc (map (one_line udigit) header) ws (t_alignments t), row_overflow t header)
       :: (alignments_row_to_doc (t_alignments t) ws, False)
       :: map (fun row => (row_to_doc (map (one_line udigit) row) ws (t_alignments t), row_overflow t row)) body)).
    cbn [map fst snd] in G. rewrite !map_map in *. cbn [fst snd] in G. eapply flat_ext; [apply G|].
    - assert (E : ws = columns_width (map (map (one_line udigit)) (t_rows t)) (t_alignments t)) by (unfold ws; rewrite R; reflexivity).
      rewrite E. constructor; [|constructor].
      + apply flat_row. rewrite R. now left.
      + apply flat_alignments.
      + assert (B : incl body (t_rows t)) by (rewrite R; intros x; now right). clear - B uwidth upper big.
        induction body as [|row body IH]; cbn; constructor; auto.
        * apply flat_row. apply B. now left.
        * apply IH. intros x I. apply B. now right.
    - rewrite T, !Exists_cons. cbn [snd]. rewrite Exists_exists. split.
      + intros [A|[[]|((d & P) & I & A)]]; [exists header; cbn; auto|].
        apply in_map_iff in I as (row & E & I). injection E as _ <-. exists row. cbn. auto.
      + intros (row & [->|I] & A); auto. right; right.
        eexists. split; [apply in_map_iff; exists row; split; [reflexivity|exact I]|exact A]. }
  pose proof (flat_render _ _ big F) as X.
  destruct (render uwidth big doc).
  - eapply W_ext; [apply W_text|]. intros ?; cbn beta. rewrite <- X. split; [tauto|discriminate].
  - apply W_panic. intros _. now apply X.
Qed.

(** ** Blocks *)
Section Blocks.
Variable config : md_config.
Notation panics := (panics uwidth udigit config).
Notation panics_blocks := (panics_blocks uwidth udigit config).

Lemma W_blocks_go i (l : list (block * doc * (nat -> Prop))) :
  Forall (fun '(b, d, P) => W i d P) l -> forall acc Pa, W i acc Pa ->
  W i (blocks_go config acc false (map fst l)) (fun pos => Pa pos \/ Exists (fun '(b, d, P) => P i) l).
Proof.
  induction 1 as [|[[b d] P] l D F IH]; intros acc Pa A; cbn [map fst blocks_go].
  - eapply W_ext; [exact A|]. intro pos. rewrite Exists_nil. tauto.
  - eapply W_ext.
    + apply IH. instantiate (1 := fun pos => Pa pos \/ P i).
      assert (One := W_line_append _ _ _ _ _ A D).
      assert (Two := W_line_append _ _ _ _ _ (W_append_line _ _ _ A) D).
      destruct b; auto. destruct (md_empty_line_before_list config); auto.
    + intro pos. cbn beta. rewrite Exists_cons. tauto.
Qed.
Lemma W_blocks i (l : list block) : Forall (fun b => forall i, W i (md_block uwidth upper udigit big config b) (fun pos => panics pos i b)) l ->
  W i (blocks_doc config (map (fun x => (x, md_block uwidth upper udigit big config x)) l)) (fun pos => panics_blocks pos i l).
Proof.
  intro F. unfold blocks_doc. destruct F as [|b l B F]; cbn [map blocks_go].
  - eapply W_ext; [apply W_nil|]. intro pos. split; [tauto|]. intro H; inversion H.
  - change (append DNil ?d) with d.
    assert (G := W_blocks_go i (map (fun x => (x, md_block uwidth upper udigit big config x, fun pos => panics pos i x)) l)).
    rewrite map_map in G. eapply W_ext; [apply G; [|apply B]|].
    + apply Forall_map. eapply Forall_impl; [|exact F]. intros x X. apply X.
    + intro pos. cbn beta. rewrite Exists_exists. split.
      * intros [H|([[x d] P] & I & H)]; [now apply panics_first|].
        apply in_map_iff in I as (y & E & I). injection E as <- <- <-. eapply panics_later; eassumption.
      * intro H. inversion H; subst; auto. right. eexists. split; [apply in_map_iff; exists c; split; [reflexivity|eassumption]|]. assumption.
Qed.

Lemma ascii_digit c : is_digit c = true -> is_ascii c = true.
Proof. unfold is_digit, is_ascii. intro H. apply andb_true_iff in H as [_ H]. apply N.leb_le in H. apply N.ltb_lt. lia. Qed.
Lemma marker_ascii kind k : forallb is_ascii (marker kind k) = true.
Proof.
  destruct kind as [start|[ | | ]]; cbn [marker]; try reflexivity. rewrite forallb_app. apply andb_true_iff. split; [|reflexivity].
  apply forallb_forall. intros c C. apply ascii_digit. pose proof (HtmlView.dec_is_digits (start + N.of_nat k)) as D.
  rewrite forallb_forall in D. auto.
Qed.
Lemma text_len_ascii s : forallb is_ascii s = true -> text_len uwidth s = List.length s.
Proof. unfold text_len. now intros ->. Qed.
Lemma rep_ascii n : forallb is_ascii (rep n c_sp) = true.
Proof. induction n; cbn; auto. Qed.
Lemma W_item i kind k n t d P : W (i + n) d P ->
  W i (item_doc config kind (counter_at kind k) n t d)
    (fun pos => P (pos + md_spaces_before_list_item config + List.length (marker kind k) + 1 + task_width t)).
Proof.
  intro D. unfold item_doc. eapply W_ext.
  - apply W_tx; [|apply W_group, W_nest, D].
    instantiate (1 := md_spaces_before_list_item config + List.length (marker kind k) + 1 + task_width t).
    apply tx_append; [apply tx_append; [apply tx_append|]|].
    + rewrite <- (repeat_length c_sp (md_spaces_before_list_item config)) at 2.
      rewrite <- text_len_ascii by apply rep_ascii. apply tx_text.
    + rewrite counter_marker, <- text_len_ascii by apply marker_ascii. apply tx_text.
    + apply (tx_text [c_sp]).
    + destruct t as [[|]|]; [apply (tx_append _ _ 3 1)|apply (tx_append _ _ 3 1)|apply tx_nil]; 
        (apply (tx_text (lit "[X]")) || apply (tx_text (lit "[ ]")) || apply (tx_text [c_sp])).
  - intro pos. cbn beta. now rewrite !Nat.add_assoc.
Qed.
Definition item_at (i : nat) (kind : list_kind) (pos : nat) (k : nat) (x : option task_state * doc * (nat -> Prop)) : Prop :=
  let '(t, d, P) := x in P (pos + md_spaces_before_list_item config + List.length (marker kind k) + 1 + task_width t).
Definition fits_kind (kind : list_kind) (k n : nat) : Prop :=
  match kind with Ordered start => (start + N.of_nat (k + n) <= u64_max)%N | Bullet _ => True end.
Lemma W_items i kind n l : Forall (fun '(t, d, P) => W (i + n) d P) l -> forall k acc Pa, W i acc Pa ->
  fits_kind kind k (List.length l) ->
  W i (fold_left (fun acc y => append (append acc DHardline) y) (items_go config kind (counter_at kind k) n (map fst l)) acc)
    (fun pos => Pa pos \/ exists j x, nth_error l j = Some x /\ item_at i kind i (k + j) x).
Proof.
  induction 1 as [|[[t d] P] l D F IH]; intros k acc Pa A K; cbn [map fst].
  - eapply W_ext; [exact A|]. intro pos. cbn beta. split; [tauto|]. intros [H|([|j] & x & E & _)]; auto; discriminate.
  - rewrite items_go_cons.
    assert (G : W i (fold_left (fun acc y => append (append acc DHardline) y)
       (item_doc config kind (counter_at kind k) n t d :: items_go config kind (counter_at kind (S k)) n (map fst l)) acc)
       (fun pos => Pa pos \/ exists j x, nth_error ((t, d, P) :: l) j = Some x /\ item_at i kind i (k + j) x)).
    { cbn [fold_left]. eapply W_ext.
      - apply IH.
        + apply W_line_append; [exact A|]. apply W_item. exact D.
        + destruct kind; cbn in *; auto. now rewrite <- plus_n_Sm in K.
      - intro pos. cbn beta. split.
        + intros [[H|H]|(j & x & E & H)]; auto; right.
          * exists 0, (t, d, P). rewrite Nat.add_0_r. split; [reflexivity|exact H].
          * exists (S j), x. rewrite <- plus_n_Sm. split; [exact E|exact H].
        + intros [H|([|j] & x & E & H)]; auto.
          * injection E as <-. rewrite Nat.add_0_r in H. auto.
          * right. exists j, x. rewrite <- plus_n_Sm in H. split; [exact E|exact H]. }
    destruct kind as [start|b]; auto.
    assert ((counter_at (Ordered start) k <? u64_max)%N = true) as ->; [|exact G].
    apply N.ltb_lt. cbn in *. lia.
Qed.
Lemma W_items0 i kind n l : Forall (fun '(t, d, P) => W (i + n) d P) l -> fits_kind kind 0 (List.length l) ->
  W i (intersperse (items_go config kind (counter_at kind 0) n (map fst l)) DHardline)
    (fun pos => exists j x, nth_error l j = Some x /\ item_at i kind (if j =? 0 then pos else i) j x).
Proof.
  destruct 1 as [|[[t d] P] l D F]; intro K; cbn [map fst].
  - eapply W_ext; [apply W_nil|]. intro pos. cbn beta. split; [tauto|]. intros ([|j] & x & E & _); discriminate.
  - rewrite items_go_cons.
    assert (G : W i (intersperse
       (item_doc config kind (counter_at kind 0) n t d :: items_go config kind (counter_at kind 1) n (map fst l)) DHardline)
       (fun pos => exists j x, nth_error ((t, d, P) :: l) j = Some x /\ item_at i kind (if j =? 0 then pos else i) j x)).
    { cbn [intersperse]. eapply W_ext.
      - apply W_items; [exact F|apply W_item; exact D|]. destruct kind; auto.
      - intro pos. cbn beta. split.
        + intros [H|(j & x & E & H)]; [exists 0, (t, d, P); split; [reflexivity|exact H]|].
          exists (S j), x. split; [exact E|exact H].
        + intros ([|j] & x & E & H); [injection E as <-; auto|]. right. exists j, x. split; [exact E|exact H]. }
    destruct kind as [start|b]; auto.
    assert ((counter_at (Ordered start) 0 <? u64_max)%N = true) as ->; [|exact G].
    apply N.ltb_lt. cbn in *. lia.
Qed.
Lemma W_list i kind l : Forall (fun '(t, d, P) => W (i + content_indent config kind (List.length l)) d P) l ->
  W i (md_list config kind (map fst l))
    (fun pos => number_overflow kind (List.length l) \/
       exists j x, nth_error l j = Some x /\ item_at i kind (if j =? 0 then pos else i) j x).
Proof.
  intro F. unfold md_list. destruct kind as [start|b].
  - rewrite map_length. cbn [number_overflow].
    destruct (N.ltb_spec u64_max (start + N.of_nat (List.length l))) as [O|O]; cbn [orb].
    { apply W_panic; intros ?; cbn beta. now left; left. }
    destruct (N.eqb_spec (start + N.of_nat (List.length l)) 0) as [Z|Z].
    { apply W_panic; intros ?; cbn beta. now left; right. }
    eapply W_ext; [|intro pos; split; [intro H; right; exact H|intros [[H|H]|H]; [lia|lia|exact H]]].
    replace start with (counter_at (Ordered start) 0) at 2 by (cbn; lia).
    destruct l as [|x l].
    { eapply W_ext; [apply W_nil|]. intro pos. cbn beta. split; [tauto|]. intros ([|j] & x & E & _); discriminate. }
    set (n := _ + _ + md_spaces_before_list_item config).
    replace (content_indent config (Ordered start) (List.length (x :: l))) with n in F.
    + apply W_items0; auto. 
    + unfold n, content_indent. cbn [marker]. rewrite app_length. cbn [List.length lit].
      replace (start + N.of_nat (S (List.length l)) - 1)%N with (start + N.of_nat (S (List.length l) - 1))%N by lia.
      unfold str, char in *. cbn. lia.
  - cbn [number_overflow]. eapply W_ext; [|intro pos; split; [intro H; right; exact H|intros [[]|H]; exact H]].
    change 0%N with (counter_at (Bullet b) 0). apply W_items0; [|exact I].
    replace (2 + md_spaces_before_list_item config) with (content_indent config (Bullet b) (List.length l)); auto.
    unfold content_indent. destruct b; cbn; lia.
Qed.
Lemma W_text_lines i l : W i (intersperse (map DText l) DHardline) (fun _ => False).
Proof. apply W_calm_intersperse; [|apply W_line]. apply Forall_map, Forall_forall. intros x _. apply W_text. Qed.
Lemma W_quote i d P : W 0 d P ->
  W i (DColumn (quote_at uwidth config d)) (fun pos => md_width config < pos + 2 \/ P 0).
Proof.
  intro D.
  assert (G : forall pos, W i (quote_at uwidth config d pos) (fun _ => md_width config < pos + 2 \/ P 0)).
  { intro pos. unfold quote_at. destruct (Nat.ltb_spec (md_width config) (pos + 2)) as [H|H].
    { apply W_panic. auto. }
    pose proof (W_render _ _ (md_width config - pos - 2) D) as R.
    destruct render as [s|].
    - eapply W_ext.
      + apply W_calm_intersperse; [|apply W_line]. apply Forall_map, Forall_forall. intros x _.
        apply W_append_calm; apply W_text.
      + intro p. cbn beta. rewrite <- R. split; [tauto|]. intros [?|?]; [lia|discriminate].
    - apply W_panic. intros _. right. now apply R. }
  split.
  - intros w m rest pos H. cbn [best]. apply (proj1 (G pos) w m rest pos H).
  - intros w m pos H. cbn [fit] in H. exact (proj2 (G pos) w m pos H).
Qed.
Lemma W_alert i t (bs : list block) d (P : nat -> Prop) : W 0 d P -> (bs = [] -> ~ P 0) ->
  W i (md_alert uwidth upper t (match bs with [] => false | _ => true end) d) (fun _ => P 0).
Proof.
  intros D E. unfold md_alert. destruct bs.
  - eapply W_ext; [apply W_text|]. intro pos. cbn beta. specialize (E eq_refl). tauto.
  - pose proof (W_render _ _ 80 D) as R. destruct render as [s|].
    + eapply W_ext; [apply W_text_lines|]. intro pos. cbn beta. rewrite <- R. split; [tauto|discriminate].
    + apply W_panic. intros _. now apply R.
Qed.
Lemma no_panics_nil pos i : ~ panics_blocks pos i [].
Proof. intro H. inversion H. Qed.

Lemma W_block b : forall i, W i (md_block uwidth upper udigit big config b) (fun pos => panics pos i b).
Proof.
  assert (Easy : forall i d b, W i d (fun _ => False) -> (forall pos, ~ panics pos i b) -> W i d (fun pos => panics pos i b)).
  { intros i d b' A B. eapply W_ext; [exact A|]. intro pos. cbn beta. specialize (B pos). tauto. }
  induction b using block_ind'; intro i; cbn [md_block].
  - apply Easy; [apply W_inlines|]. intros pos H; inversion H.
  - apply Easy; [|intros pos H; inversion H].
    unfold md_heading. destruct (h_kind h) as [n|[|]]; repeat first [apply W_append_calm | apply W_inlines | apply W_text | apply W_line].
  - apply Easy; [apply W_text|]. intros pos H; inversion H.
  - eapply W_ext; [apply W_quote, W_blocks; assumption|]. intro pos. cbn beta. split.
    + intros [A|A]; [now apply panics_quote|now apply panics_in_quote].
    + intro A; inversion A; subst; auto.
  - cbn [l_kind l_items].
    assert (G := W_list i k (map (fun it => (li_task it,
       blocks_doc config (map (fun x => (x, md_block uwidth upper udigit big config x)) (li_blocks it)),
       fun pos => panics_blocks pos (i + content_indent config k (List.length items)) (li_blocks it))) items)).
    rewrite map_length, !map_map in G. eapply W_ext.
    + apply G. apply Forall_map. eapply Forall_impl; [|exact H]. intros it F. now apply W_blocks.
    + intro pos. cbn beta. split.
      * intros [A|(j & x & E & A)]; [now apply panics_numbers|].
        rewrite nth_error_map in E. destruct (nth_error items j) as [[task bs]|] eqn:N; [|discriminate].
        injection E as <-. cbn in A. eapply panics_item; eassumption.
      * intro A. inversion A; subst; auto. right. eexists k0, _. split.
        -- rewrite nth_error_map, H4. reflexivity.
        -- eassumption.
  - apply Easy; [|intros pos H; inversion H].
    destruct c as [[|info] s]; cbn [md_code_block]; repeat first [apply W_text | apply W_append_calm].
  - apply Easy; [apply W_text|]. intros pos H; inversion H.
  - apply Easy; [|intros pos H; inversion H].
    unfold md_definition. repeat first [apply W_append_calm | apply W_text | apply W_inlines].
  - eapply W_ext; [apply W_table|]. intro pos. cbn beta. split; [now constructor|]. intro A; now inversion A.
  - cbn [fd_label fd_blocks]. eapply W_ext; [apply W_tx; [apply tx_text|apply W_blocks; assumption]|].
    intro pos. cbn beta. split; [now constructor|]. intro A; now inversion A.
  - cbn [ga_type ga_blocks]. eapply W_ext; [apply W_alert; [apply W_blocks; assumption|]|].
    + intros ->. apply no_panics_nil.
    + intro pos. cbn beta. split; [now constructor|]. intro A; now inversion A.
  - apply Easy; [apply W_nil|]. intros pos H; inversion H.
Qed.
Theorem panics_exactly d : render_markdown uwidth upper udigit big d config = None <-> document_panics uwidth udigit config d.
Proof.
  unfold render_markdown, md_blocks. rewrite W_render; [|apply W_blocks, Forall_forall; intros b _; apply W_block]. reflexivity.
Qed.
End Blocks.
End Panic.
